(** Model of the POSIX-like API layer: posix/path.c, posix/posix.c, util/string.c, util/namelen.c.

    Configuration modelled: REDCONF_READ_ONLY 0, REDCONF_TASK_COUNT > 1, all optional
    REDCONF_API_POSIX_* features on (CWD, LINK, RENAME with REDCONF_RENAME_ATOMIC 1, READDIR,
    FTRUNCATE, FORMAT, ...), any number of volumes.

    The code between PosixEnter and PosixLeave is a term of [B]: a sequence of atomic actions on
    the globals.  Every call into the core (FsVolume.v) is one action.  NULL pointer arguments
    (answered with RED_EINVAL) are not modelled. *)
From Verif Require Import Base Count FsState FsDir FsSpec FsMach FsVolume FsReach.
From Coq Require Import ZArith.

(** * Strings.  A [const char *] is the list of the bytes from the pointed-to byte on; memory after
    the end of the list reads as zero. *)
Definition str := list N.
Definition ch (s : str) : N := match s with [] => 0 | c :: _ => c end.   (* s[0] *)
(** util/string.c:85-103 RedStrLenUnchecked *)
Fixpoint strlen (s : str) : nat := match s with [] => O | c :: s' => if c =? 0 then O else S (strlen s') end.
(** util/string.c:232-268 RedStrNCmpUnchecked, compared with 0 *)
Fixpoint strneq (n : nat) (a b : str) : bool :=
  match n with
  | O => true
  | S n' => if ch a =? ch b then if ch a =? 0 then true else strneq n' (tl a) (tl b) else false
  end.

Record pcfg := mkPC {
  NV : N;                 (* REDCONF_VOLUME_COUNT *)
  gs : N -> cfg;          (* per volume *)
  prefix : N -> str;      (* gaRedVolConf[].pszPathPrefix, without the terminator *)
  SEP : N;                (* REDCONF_PATH_SEPARATOR *)
  HC : N;                 (* REDCONF_HANDLE_COUNT *)
  TC : N;                 (* REDCONF_TASK_COUNT *)
  ATOM : N -> bool;       (* fAtomicSectorWrite *)
  MMASK : N; TMASK : N; TDEF : N }.

(** posix.c:91-106 REDHANDLE: bFlags as booleans, [h_off] is the union o (file offset or directory
    position); 115-132 TASKSLOT without iErrno, which is kept apart below. *)
Record handle := mkH { h_ino : N; h_vol : N; h_dir : bool; h_rd : bool; h_wr : bool; h_app : bool; h_off : N }.
Record task := mkT { t_id : N; t_vol : N; t_ino : N }.
(** The globals: gfPosixInited, gaHandle, gaTask, gauGeneration, the volumes, gbRedVolNum.
    Ghost: [p_o] supplies the oracles of the core calls; [p_ok] is cleared when a core call falls
    outside of the histories considered in FsReach.v ([allowed], [room], rename). *)
Record pst := mkP { p_init : bool; p_h : N -> handle; p_t : N -> task; p_gen : N -> N; p_v : N -> vol; p_cur : N;
  p_o : nat -> oracle * oracle; p_ok : bool }.
Definition set_h i x s := mkP (p_init s) (upd (p_h s) i x) (p_t s) (p_gen s) (p_v s) (p_cur s) (p_o s) (p_ok s).
Definition set_hs x s := mkP (p_init s) x (p_t s) (p_gen s) (p_v s) (p_cur s) (p_o s) (p_ok s).
Definition set_t x s := mkP (p_init s) (p_h s) x (p_gen s) (p_v s) (p_cur s) (p_o s) (p_ok s).
Definition set_gen x s := mkP (p_init s) (p_h s) (p_t s) x (p_v s) (p_cur s) (p_o s) (p_ok s).
Definition set_cur n s := mkP (p_init s) (p_h s) (p_t s) (p_gen s) (p_v s) n (p_o s) (p_ok s).
Definition set_ok b s := mkP (p_init s) (p_h s) (p_t s) (p_gen s) (p_v s) (p_cur s) (p_o s) b.

(** Sequences of atomic actions; the core calls are labelled. *)
Inductive B (A : Type) : Type := BRet (a : A) | BAct (X : Type) (lab : option call) (f : pst -> X * pst) (k : X -> B A).
Arguments BRet {A} _.
Arguments BAct {A X} _ _ _.
Fixpoint bbind {A C} (m : B A) (f : A -> B C) : B C :=
  match m with BRet a => f a | BAct l g k => BAct l g (fun x => bbind (k x) f) end.
Fixpoint brun {A} (m : B A) (s : pst) : A * pst :=
  match m with BRet a => (a, s) | BAct _ f k => brun (k (fst (f s))) (snd (f s)) end.
(** ... with a status. *)
Definition PM (A : Type) := B (res A).
Definition ret {A} (a : A) : PM A := BRet (Ok a).
Definition fail {A} (e : errno) : PM A := BRet (Err e).
Definition bind {A C} (m : PM A) (f : A -> PM C) : PM C := bbind m (fun r => match r with Ok a => f a | Err e => BRet (Err e) end).
Definition catch {A C} (m : PM A) (f : res A -> PM C) : PM C := bbind m f.
Definition act {A} (f : pst -> res A * pst) : PM A := BAct None f (fun r => BRet r).
Definition get {A} (f : pst -> A) : PM A := act (fun s => (Ok (f s), s)).
Definition modify (f : pst -> pst) : PM unit := act (fun s => (Ok tt, f s)).
Declare Scope px_scope.
Delimit Scope px_scope with px.
Notation "x <- m ;; k" := (bind m (fun x => k)) (at level 61, m at next level, right associativity) : px_scope.
Notation "m ;; k" := (bind m (fun _ => k)) (at level 61, right associativity) : px_scope.
Open Scope px_scope.
Definition check (b : bool) (e : errno) : PM unit := if b then ret tt else fail e.

(** The first index below n that satisfies f. *)
Definition below (n : N) : list N := map N.of_nat (seq 0 (N.to_nat n)).
Definition first (f : N -> bool) (n : N) : option N := find f (below n).

Section Posix.
Variable pc : pcfg.
Notation SEP := (SEP pc).

(** * util/namelen.c:40-58 RedNameLen; the name is the bytes it counts *)
Fixpoint name_of (s : str) : name := match s with [] => [] | c :: s' => if (c =? 0) || (c =? SEP) then [] else c :: name_of s' end.
(** Skip separators: path.c:442-447, 566-587, 612-633 *)
Fixpoint skip_sep (s : str) : str := match s with [] => [] | c :: s' => if c =? SEP then skip_sep s' else s end.
(** path.c:566-590 IsRootDir, 612-641 PathHasMoreComponents, 653-664 IsDot, 676-688 IsDotDot *)
Definition IsRootDir (s : str) : bool := (ch s =? SEP) && (ch (skip_sep s) =? 0).
Definition PathHasMoreComponents (s : str) : bool := negb (ch (skip_sep s) =? 0).
Definition is_end (c : N) : bool := (c =? 0) || (c =? SEP).
Definition IsDot (s : str) : bool := (ch s =? DOT) && is_end (ch (tl s)).
Definition IsDotDot (s : str) : bool := (ch s =? DOT) && (ch (tl s) =? DOT) && is_end (ch (tl (tl s))).
Definition IsDotOrDotDot (s : str) : bool := IsDot s || IsDotDot s.

(** * A call into the core on the current volume *)
Definition okb (v : vol) (c : call) (o1 o2 : oracle) : bool :=
  match c with CMount _ => negb (v_mnt v) | CUnmount => v_mnt v | CFormat => v_mnt v || (s_afree (v_s v) =? 0) | _ => true end &&
  (v_seq v + fst o1 + fst o2 + 3 <=? UINT64_MAX).
Definition core_act (c : call) (s : pst) : res out * pst :=
  let n := p_cur s in
  let '(o1, o2) := p_o s O in
  let '(r, v', _) := exec (gs pc n) (ATOM pc n) (MMASK pc) (TMASK pc) c o1 o2 (p_v s n) in
  (r, mkP (p_init s) (p_h s) (p_t s) (p_gen s) (upd (p_v s) n v') n (fun k => p_o s (S k)) (p_ok s && okb (p_v s n) c o1 o2)).
Definition core (c : call) : PM out := BAct (Some c) (core_act c) (fun r => BRet r).
Definition core_num (c : call) : PM N := bind (core c) (fun o => match o with ONum n => ret n | _ => fail EFUBAR end).
Definition core_unit (c : call) : PM unit := bind (core c) (fun _ => ret tt).
Definition core_stat (i : N) : PM (bool * N * N * N) := bind (core (CStat i)) (fun o => match o with OStat x => ret x | _ => fail EFUBAR end).
Definition core_dirread (i pos : N) : PM (option (name * N) * N) := bind (core (CDirRead i pos)) (fun o => match o with OEnt x => ret x | _ => fail EFUBAR end).
Definition st_dir (x : bool * N * N * N) : bool := fst (fst (fst x)).
Definition st_nlink (x : bool * N * N * N) : N := snd (fst (fst x)).
Definition st_size (x : bool * N * N * N) : N := snd (fst x).

(** core.c:236-259 RedCoreVolSetCurrent *)
Definition RedCoreVolSetCurrent (n : N) : PM unit := if n <? NV pc then modify (set_cur n) else fail EINVAL.
(** gpRedVolume->fMounted, fReadOnly *)
Definition cur_vol (s : pst) : vol := p_v s (p_cur s).

(** * path.c:66-156 RedPathVolumePrefixLookup *)
Definition prefix_matches (path pre : str) : bool := strneq (strlen pre) path pre && is_end (ch (skipn (strlen pre) path)).
(** One iteration: (bMatchVol, ulMatchLen, bDefaultVolNum) *)
Definition prefix_step (path : str) (a : option N * nat * option N) (n : N) : option N * nat * option N :=
  let '(m, l, d) := a in
  let pl := strlen (prefix pc n) in
  if Nat.eqb pl 0 then (m, l, Some n)
  else if prefix_matches path (prefix pc n) then if Nat.ltb l pl then (Some n, pl, d) else (m, l, d)
  else (m, l, d).
Definition prefix_lookup (path : str) : option N :=
  match fold_left (prefix_step path) (below (NV pc)) (None, O, None) with
  | (Some n, _, _) => Some n | (None, _, d) => d
  end.
Definition RedPathVolumePrefixLookup (path : str) : PM N :=
  match prefix_lookup path with None => fail ENOENT | Some n => RedCoreVolSetCurrent n ;; ret n end.
(** path.c:176-206 RedPathVolumeLookup *)
Definition RedPathVolumeLookup (path : str) : PM N :=
  n <- RedPathVolumePrefixLookup path ;;
  let x := skipn (strlen (prefix pc n)) path in
  check ((ch x =? 0) || IsRootDir x) ENOENT ;; ret n.

(** * path.c:725-747 InodeMustBeDir *)
Definition InodeMustBeDir (i : N) : PM unit :=
  if i =? ROOT then ret tt else x <- core_stat i ;; check (st_dir x) ENOTDIR.
(** path.c:438-523, the loop of PathWalk: [p] is &pszLocalPath[ulPathIdx], [last] is
    &pszLocalPath[ulLastNameIdx].  The fuel is the length of the path. *)
Fixpoint walk_loop (fuel : nat) (p last : str) (i pi : N) (want : bool) : PM (N * N * str) :=
  match fuel with
  | O => fail EFUBAR
  | S fuel' =>
    let q := skip_sep p in
    if ch q =? 0 then ret (i, pi, last)
    else if IsDot q then InodeMustBeDir i ;; walk_loop fuel' (skipn 1 q) q i pi want
    else if IsDotDot q then
      InodeMustBeDir i ;;
      let i' := if i =? ROOT then i else pi in
      pp <- core_num (CDirParent i') ;;
      walk_loop fuel' (skipn 2 q) q i' pp want
    else
      let nm := name_of q in
      let rest := skipn (length nm) q in
      i' <- (if PathHasMoreComponents rest || want then core_num (CLookup i nm) else ret i) ;;
      walk_loop fuel' rest q i' i want
  end.
(** path.c:399-553 PathWalk: yields (inode, parent, last component) *)
Definition PathWalk (cwd : N) (p : str) (want : bool) : PM (N * N * str) :=
  check (negb (cwd =? 0)) EINVAL ;;
  pi <- core_num (CDirParent cwd) ;;
  walk_loop (S (length p)) p p cwd pi want.
(** path.c:233-253 RedPathLookup *)
Definition RedPathLookup (cwd : N) (p : str) : PM N := x <- PathWalk cwd p true ;; ret (fst (fst x)).
(** path.c:301-352 RedPathToName, with 524-535 of PathWalk *)
Definition RedPathToName (cwd : N) (p : str) (rootDirError : errno) : PM (N * name) :=
  x <- PathWalk cwd p false ;;
  let '(_, pi, last) := x in
  check (negb (pi =? 0)) rootDirError ;;
  check (negb (IsDotOrDotDot last)) EINVAL ;;
  ret (pi, name_of last).

(** * Tasks: posix.c:3611-3669 TaskRegister *)
Definition task_slot (tid : N) (s : pst) : option N := first (fun k => t_id (p_t s k) =? tid) (TC pc).
Definition TaskRegister (tid : N) (s : pst) : res N * pst :=
  match task_slot tid s with
  | Some k => (Ok k, s)
  | None =>
    match first (fun k => t_id (p_t s k) =? 0) (TC pc) with
    | None => (Err EUSERS, s)
    | Some k => (Ok k, set_t (upd (p_t s) k (mkT tid (t_vol (p_t s k)) (t_ino (p_t s k)))) s)
    end
  end.
(** posix.c:3678-3707 CwdGet *)
Definition CwdGet (tid : N) : PM (N * N) :=
  act (fun s => match task_slot tid s with Some k => (Ok (t_vol (p_t s k), t_ino (p_t s k)), s) | None => (Err EFUBAR, s) end).
(** posix.c:3715-3738 CwdResetVol *)
Definition CwdResetVol (n : N) : PM unit :=
  modify (fun s => set_t (fun k => if (k <? TC pc) && (t_vol (p_t s k) =? n) then mkT (t_id (p_t s k)) n ROOT else p_t s k) s).

(** * posix.c:2875-2943 PathStartingPoint: (volume, cwd inode, local path) *)
Definition PathStartingPoint (tid : N) (path : str) : PM (N * N * str) :=
  catch (RedPathVolumePrefixLookup path) (fun r =>
    let use_cwd := match r with Err e => errno_eqb e ENOENT | Ok n => Nat.eqb (strlen (prefix pc n)) 0 end in
    if use_cwd && negb (ch path =? SEP) && negb (ch path =? 0) then
      c <- CwdGet tid ;; RedCoreVolSetCurrent (fst c) ;; ret (fst c, snd c, path)
    else match r with
         | Err e => fail e
         | Ok n => ret (n, ROOT, skipn (strlen (prefix pc n)) path)
         end).

(** * File descriptors *)
Definition FD_GEN_MAX : N := 2047.
Definition FD_MIN : Z := 3.
Definition INODE_INVALID : N := 0.
(** posix.c:3302-3336 FildesPack *)
Definition fd_bits (gen vol idx : N) : N := N.lor (N.shiftl (N.lor (N.shiftl gen 8) vol) 12) idx.
Definition FildesPack (idx vol : N) (s : pst) : option Z :=
  if (HC pc <=? idx) || (NV pc <=? vol) then None else
  let fd := Z.of_N (fd_bits (p_gen s vol) vol idx) in if (fd <? FD_MIN)%Z then None else Some fd.
(** posix.c:3349-3377 FildesUnpack: (generation, volume, handle index) *)
Definition FildesUnpack (fd : Z) : N * N * N :=
  let b := Z.to_N fd in
  (N.land (N.shiftr (N.shiftr b 12) 8) 2047, N.land (N.shiftr b 12) 255, N.land b 4095).
Inductive ftype := FTYPE_FILE | FTYPE_DIR | FTYPE_EITHER.
(** posix.c:3242-3290 FildesToHandle: the handle index *)
Definition FildesToHandle (fd : Z) (ty : ftype) (s : pst) : res N :=
  if (fd <? FD_MIN)%Z then Err EBADF else
  let '(gen, vol, idx) := FildesUnpack fd in
  let h := p_h s idx in
  if (HC pc <=? idx) || (NV pc <=? vol) || (h_ino h =? INODE_INVALID) || negb (h_vol h =? vol) || negb (p_gen s vol =? gen) then Err EBADF
  else match ty with
       | FTYPE_FILE => if h_dir h then Err EISDIR else Ok idx
       | FTYPE_DIR => if h_dir h then Ok idx else Err ENOTDIR
       | FTYPE_EITHER => Ok idx
       end.
Definition to_handle (fd : Z) (ty : ftype) : PM N := act (fun s => (FildesToHandle fd ty s, s)).
Definition get_h (k : N) : PM handle := get (fun s => p_h s k).
Definition set_off (k off : N) : PM unit := modify (fun s => let h := p_h s k in set_h k (mkH (h_ino h) (h_vol h) (h_dir h) (h_rd h) (h_wr h) (h_app h) off) s).
Definition close_h (k : N) : PM unit := modify (fun s => let h := p_h s k in set_h k (mkH INODE_INVALID (h_vol h) (h_dir h) (h_rd h) (h_wr h) (h_app h) (h_off h)) s).
(** posix.c:3483-3509 ModeTypeCheck *)
Definition ModeTypeCheck (dir : bool) (ty : ftype) : PM unit :=
  match ty with FTYPE_FILE => check (negb dir) EISDIR | FTYPE_DIR => check dir ENOTDIR | FTYPE_EITHER => ret tt end.

(** include/redposix.h:56-74 *)
Definition O_RDONLY : N := 1. Definition O_WRONLY : N := 2. Definition O_RDWR : N := 4. Definition O_APPEND : N := 8.
Definition O_CREAT : N := 16. Definition O_EXCL : N := 32. Definition O_TRUNC : N := 64. Definition O_MASK : N := 127.
(** posix.c:1043-1052 *)
Definition mode_bad (m : N) : bool :=
  negb (m =? N.land m O_MASK) || negb (has m (O_RDONLY + O_WRONLY + O_RDWR)) || (has m O_RDONLY && has m (O_WRONLY + O_RDWR)) ||
  (has m O_WRONLY && has m (O_RDONLY + O_RDWR)) || (has m O_RDWR && has m (O_RDONLY + O_WRONLY)) ||
  (has m (O_TRUNC + O_CREAT + O_EXCL) && has m O_RDONLY) || (has m O_EXCL && negb (has m O_CREAT)).

(** posix.c:2985-3163 FildesOpen: (handle index, descriptor) *)
Definition FildesOpen (tid : N) (path : str) (m : N) (ty : ftype) : PM (N * Z) :=
  sp <- PathStartingPoint tid path ;;
  let '(vn, cwd, local) := sp in
  ro <- get (fun s => s_ro (v_s (cur_vol s))) ;;
  check (negb (ro && negb (m =? O_RDONLY))) EROFS ;;
  k <- act (fun s => (match first (fun k => h_ino (p_h s k) =? INODE_INVALID) (HC pc) with Some k => Ok k | None => Err EMFILE end, s)) ;;
  x <- (if has m O_CREAT then
          pn <- RedPathToName cwd local EISDIR ;;
          catch (core_num (CCreate (fst pn) (snd pn) false)) (fun r =>
            match r with
            | Ok i => ret (true, i)
            | Err e => if errno_eqb e EEXIST && negb (has m O_EXCL) then i <- core_num (CLookup (fst pn) (snd pn)) ;; ret (false, i) else fail e
            end)
        else i <- RedPathLookup cwd local ;; ret (false, i)) ;;
  dir <- (if fst x then ret false else
          st <- core_stat (snd x) ;;
          ModeTypeCheck (st_dir st) ty ;;
          check (negb (st_dir st && negb (has m O_RDONLY))) EISDIR ;;
          (if has m O_TRUNC then core_unit (CTruncate (snd x) 0) else ret tt) ;;
          ret (st_dir st)) ;;
  modify (set_h k (mkH (snd x) vn dir (has m O_RDONLY || has m O_RDWR) (has m O_WRONLY || has m O_RDWR) (has m O_APPEND) 0)) ;;
  fd <- act (fun s => (match FildesPack k vn s with Some fd => Ok fd | None => Err EFUBAR end, s)) ;;
  ret (k, fd).

Definition T_CLOSE : N := 64.
Definition T_FSYNC : N := 256.
Definition T_SYNC : N := 2048.
(** posix.c:3176-3219 FildesClose *)
Definition FildesClose (fd : Z) : PM unit :=
  k <- to_handle fd FTYPE_EITHER ;;
  h <- get_h k ;;
  RedCoreVolSetCurrent (h_vol h) ;;
  ro <- get (fun s => s_ro (v_s (cur_vol s))) ;;
  (if ro then ret tt else mask <- core_num CMaskGet ;; if has mask T_CLOSE then core_unit CTransact else ret tt) ;;
  close_h k.

(** posix.c:3533-3591 InodeUnlinkCheck *)
Definition InodeUnlinkCheck (i : N) : PM unit :=
  st <- core_stat i ;;
  if negb (st_nlink st =? 1) then ret tt else
  act (fun s => (match first (fun k => (h_ino (p_h s k) =? i) && (h_vol (p_h s k) =? p_cur s)) (HC pc) with Some _ => Err EBUSY | None => Ok tt end, s)) ;;
  act (fun s => (match first (fun k => (t_ino (p_t s k) =? i) && (t_vol (p_t s k) =? p_cur s)) (TC pc) with Some _ => Err EBUSY | None => Ok tt end, s)).
(** posix.c:2798-2846 UnlinkSub *)
Definition UnlinkSub (tid : N) (path : str) (ty : ftype) : PM unit :=
  sp <- PathStartingPoint tid path ;;
  let '(_, cwd, local) := sp in
  pn <- RedPathToName cwd local EBUSY ;;
  i <- core_num (CLookup (fst pn) (snd pn)) ;;
  (match ty with FTYPE_EITHER => ret tt | _ => st <- core_stat i ;; ModeTypeCheck (st_dir st) ty end) ;;
  InodeUnlinkCheck i ;;
  core_unit (CUnlink (fst pn) (snd pn)).

(** * The API *)
Inductive whence := SEEK_SET | SEEK_CUR | SEEK_END | SEEK_OTHER.
(** [d] of the directory stream calls is the index of the REDHANDLE (a REDDIR points to one; other
    pointers are rejected by DirStreamIsValid); [fuel] bounds the loops of red_getcwd. *)
Inductive pcall :=
| PMount (vol : str) (flags : N) | PUmount (vol : str) (flags : N) | PFormat (vol : str) | PTransact (vol : str) | PRollback (vol : str)
| PSetMask (vol : str) (m : N) | PGetMask (vol : str) | PStatvfs (vol : str) | PSync
| POpen (path : str) (mode : N) | PUnlink (path : str) | PMkdir (path : str) | PRmdir (path : str)
| PRename (old new : str) | PLink (path link : str) | PClose (fd : Z) | PRead (fd : Z) (len : N) | PWrite (fd : Z) (len : N) (src : N -> N)
| PFsync (fd : Z) | PLseek (fd : Z) (off : Z) (w : whence) | PFtruncate (fd : Z) (size : N) | PFstat (fd : Z)
| POpendir (path : str) | PReaddir (d : N) | PRewinddir (d : N) | PClosedir (d : N)
| PChdir (path : str) | PGetcwd (size : N) (fuel : nat).
Inductive pout :=
| RUnit | RNum (n : N) | RFd (fd : Z) | ROff (z : Z) | RStat (x : bool * N * N * N) | RVStat (x : N * N * bool) | RBytes (n : N) (f : N -> N)
| RDir (d : N) | REnt (e : option (name * N * (bool * N * N * N))) | RStr (s : str).

Definition INT32_MAX : N := 2147483647.
Definition INT64_MAX : Z := 9223372036854775807.

(** posix.c:449-500 red_mount2 *)
Definition red_mount2 (vol : str) (flags : N) : PM pout :=
  n <- RedPathVolumeLookup vol ;;
  m <- get (fun s => v_mnt (cur_vol s)) ;;
  check (negb m) EBUSY ;;
  core_unit (CMount flags) ;;
  modify (fun s => let x := p_gen s (p_cur s) + 1 in set_gen (upd (p_gen s) (p_cur s) (if FD_GEN_MAX <? x then 1 else x)) s) ;;
  ret RUnit.
(** posix.c:573-644 red_umount2; RED_UMOUNT_FORCE = RED_UMOUNT_MASK = 1.  The loop 607-623 closes the
    handles of the volume, or fails at the first one. *)
Definition on_vol (s : pst) (n k : N) : bool := negb (h_ino (p_h s k) =? INODE_INVALID) && (h_vol (p_h s k) =? n).
Definition red_umount2 (vol : str) (flags : N) : PM pout :=
  check (flags =? N.land flags 1) EINVAL ;;
  n <- RedPathVolumeLookup vol ;;
  m <- get (fun s => v_mnt (cur_vol s)) ;;
  check m EINVAL ;;
  (if has flags 1 then
     modify (fun s => set_hs (fun k => let h := p_h s k in
       if (k <? HC pc) && on_vol s (p_cur s) k then mkH INODE_INVALID (h_vol h) (h_dir h) (h_rd h) (h_wr h) (h_app h) (h_off h) else h) s)
   else act (fun s => (match first (on_vol s (p_cur s)) (HC pc) with Some _ => Err EBUSY | None => Ok tt end, s))) ;;
  core_unit CUnmount ;;
  c <- get p_cur ;;
  CwdResetVol c ;;
  ret RUnit.
(** posix.c:667-686 red_format, 713-732 red_transact, 757-808 red_rollback *)
Definition red_format (vol : str) : PM pout := RedPathVolumeLookup vol ;; core_unit CFormat ;; ret RUnit.
Definition red_transact (vol : str) : PM pout := RedPathVolumeLookup vol ;; core_unit CTransact ;; ret RUnit.
Definition red_rollback (vol : str) : PM pout :=
  n <- RedPathVolumeLookup vol ;;
  act (fun s => (match first (on_vol s n) (HC pc) with Some _ => Err EBUSY | None => Ok tt end, s)) ;;
  core_unit CRollback ;;
  CwdResetVol n ;;
  ret RUnit.
(** posix.c:852-956 *)
Definition red_settransmask (vol : str) (m : N) : PM pout := RedPathVolumeLookup vol ;; core_unit (CMaskSet m) ;; ret RUnit.
Definition red_gettransmask (vol : str) : PM pout := RedPathVolumeLookup vol ;; m <- core_num CMaskGet ;; ret (RNum m).
Definition red_statvfs (vol : str) : PM pout :=
  RedPathVolumeLookup vol ;; o <- core CVolStat ;; match o with OVStat x => ret (RVStat x) | _ => fail EFUBAR end.
(** posix.c:342-384 red_sync: every volume, the last error is returned *)
Definition sync_vol (n : N) (r : res unit) : B (res unit) :=
  catch (get (fun s => v_mnt (p_v s n) && negb (s_ro (v_s (p_v s n))))) (fun b =>
    match b with
    | Ok true => catch (RedCoreVolSetCurrent n ;; mask <- core_num CMaskGet ;; if has mask T_SYNC then core_unit CTransact else ret tt)
                   (fun r' => BRet (match r' with Ok _ => r | Err e => Err e end))
    | _ => BRet r
    end).
Definition red_sync : PM pout := fold_left (fun m n => catch m (sync_vol n)) (below (NV pc)) (ret tt) ;; ret RUnit.
(** posix.c:1027-1074 red_open *)
Definition red_open (tid : N) (path : str) (m : N) : PM pout :=
  if mode_bad m then fail EINVAL else x <- FildesOpen tid path m FTYPE_EITHER ;; ret (RFd (snd x)).
(** posix.c:1124-1138, 1169-1199, 1254-1268 *)
Definition red_unlink (tid : N) (path : str) : PM pout := UnlinkSub tid path FTYPE_EITHER ;; ret RUnit.
Definition red_rmdir (tid : N) (path : str) : PM pout := UnlinkSub tid path FTYPE_DIR ;; ret RUnit.
Definition red_mkdir (tid : N) (path : str) : PM pout :=
  sp <- PathStartingPoint tid path ;;
  let '(_, cwd, local) := sp in
  pn <- RedPathToName cwd local EEXIST ;;
  core_num (CCreate (fst pn) (snd pn) true) ;; ret RUnit.
(** posix.c:1338-1412 red_rename *)
Definition red_rename (tid : N) (old new : str) : PM pout :=
  a <- PathStartingPoint tid old ;;
  let '(ov, ocwd, olocal) := a in
  b <- PathStartingPoint tid new ;;
  let '(nv, ncwd, nlocal) := b in
  check (ov =? nv) EXDEV ;;
  o <- RedPathToName ocwd olocal EBUSY ;;
  n <- RedPathToName ncwd nlocal EBUSY ;;
  catch (core_num (CLookup (fst n) (snd n))) (fun r =>
    match r with Ok i => InodeUnlinkCheck i | Err e => if errno_eqb e ENOENT then ret tt else fail e end) ;;
  core_unit (CRename (fst o) (snd o) (fst n) (snd n)) ;; ret RUnit.
(** posix.c:1458-1508 red_link *)
Definition red_link (tid : N) (path link : str) : PM pout :=
  a <- PathStartingPoint tid path ;;
  let '(v1, cwd, local) := a in
  b <- PathStartingPoint tid link ;;
  let '(v2, lcwd, llocal) := b in
  check (v1 =? v2) EXDEV ;;
  i <- RedPathLookup cwd local ;;
  n <- RedPathToName lcwd llocal EEXIST ;;
  core_unit (CLink (fst n) (snd n) i) ;; ret RUnit.
(** posix.c:1524-1538 *)
Definition red_close (fd : Z) : PM pout := FildesClose fd ;; ret RUnit.
(** posix.c:1586-1619 red_read after the length check *)
Definition red_read (fd : Z) (len : N) : PM pout :=
  k <- to_handle fd FTYPE_FILE ;;
  h <- get_h k ;;
  check (h_rd h) EBADF ;;
  RedCoreVolSetCurrent (h_vol h) ;;
  o <- core (CRead (h_ino h) (h_off h) len) ;;
  match o with ORead (n, f) => set_off k (h_off h + n) ;; ret (RBytes n f) | _ => fail EFUBAR end.
(** posix.c:1693-1746 red_write after the length check *)
Definition eisdir_ebadf {A} (m : PM A) : PM A := catch m (fun r => match r with Err EISDIR => fail EBADF | _ => BRet r end).
Definition red_write (fd : Z) (len : N) (src : N -> N) : PM pout :=
  k <- eisdir_ebadf (to_handle fd FTYPE_FILE) ;;
  h <- get_h k ;;
  check (h_wr h) EBADF ;;
  RedCoreVolSetCurrent (h_vol h) ;;
  (if h_app h then st <- core_stat (h_ino h) ;; set_off k (st_size st) else ret tt) ;;
  h' <- get_h k ;;
  n <- core_num (CWrite (h_ino h') (h_off h') len src) ;;
  set_off k (h_off h' + n) ;; ret (RNum n).
(** posix.c:1795-1833 red_fsync *)
Definition red_fsync (fd : Z) : PM pout :=
  k <- to_handle fd FTYPE_EITHER ;;
  h <- get_h k ;;
  RedCoreVolSetCurrent (h_vol h) ;;
  mask <- core_num CMaskGet ;;
  (if has mask T_FSYNC then core_unit CTransact else ret tt) ;; ret RUnit.
(** posix.c:1874-1977 red_lseek *)
Definition red_lseek (fd off : Z) (w : whence) : PM pout :=
  k <- to_handle fd FTYPE_FILE ;;
  h <- get_h k ;;
  RedCoreVolSetCurrent (h_vol h) ;;
  from <- (match w with
           | SEEK_SET => ret 0%Z
           | SEEK_CUR => ret (Z.of_N (h_off h))
           | SEEK_END => st <- core_stat (h_ino h) ;; ret (Z.of_N (st_size st))
           | SEEK_OTHER => fail EINVAL
           end) ;;
  c <- get p_cur ;;
  if ((0 <? off) && (INT64_MAX <? from + off))%Z then fail EINVAL else
  let new := (from + off)%Z in
  if ((new <? 0) || (Z.of_N (INODE_SIZE_MAX (gs pc c)) <? new))%Z then fail EINVAL
  else set_off k (Z.to_N new) ;; ret (ROff new).
(** posix.c:2013-2054 red_ftruncate, 2075-2104 red_fstat *)
Definition red_ftruncate (fd : Z) (size : N) : PM pout :=
  k <- eisdir_ebadf (to_handle fd FTYPE_FILE) ;;
  h <- get_h k ;;
  check (h_wr h) EBADF ;;
  RedCoreVolSetCurrent (h_vol h) ;;
  core_unit (CTruncate (h_ino h) size) ;; ret RUnit.
Definition red_fstat (fd : Z) : PM pout :=
  k <- to_handle fd FTYPE_EITHER ;;
  h <- get_h k ;;
  RedCoreVolSetCurrent (h_vol h) ;;
  st <- core_stat (h_ino h) ;; ret (RStat st).
(** posix.c:2127-2157 red_opendir *)
Definition red_opendir (tid : N) (path : str) : PM pout := x <- FildesOpen tid path O_RDONLY FTYPE_DIR ;; ret (RDir (snd (FildesUnpack (snd x)))).
(** posix.c:3390-3416 DirStreamIsValid *)
Definition DirStreamIsValid (d : N) (s : pst) : bool :=
  (d <? HC pc) && negb (h_ino (p_h s d) =? INODE_INVALID) && (h_vol (p_h s d) <? NV pc) && h_dir (p_h s d).
(** posix.c:2190-2248 red_readdir *)
Definition red_readdir (d : N) : PM pout :=
  h <- act (fun s => (if DirStreamIsValid d s then Ok (p_h s d) else Err EBADF, s)) ;;
  RedCoreVolSetCurrent (h_vol h) ;;
  e <- core_dirread (h_ino h) (h_off h) ;;
  set_off d (snd e) ;;
  match fst e with
  | None => ret (REnt None)
  | Some (nm, i) => st <- core_stat i ;; ret (REnt (Some (nm, i, st)))
  end.
(** posix.c:2262-2274 red_rewinddir, 2290-2313 red_closedir *)
Definition red_rewinddir (d : N) : PM pout :=
  b <- get (DirStreamIsValid d) ;; (if b then set_off d 0 else ret tt) ;; ret RUnit.
Definition red_closedir (d : N) : PM pout :=
  b <- get (DirStreamIsValid d) ;; check b EBADF ;; close_h d ;; ret RUnit.
(** posix.c:2343-2406 red_chdir *)
Definition red_chdir (tid : N) (path : str) : PM pout :=
  sp <- PathStartingPoint tid path ;;
  let '(vn, cwd, local) := sp in
  i <- RedPathLookup cwd local ;;
  (if i =? ROOT then ret tt else st <- core_stat i ;; check (st_dir st) ENOTDIR) ;;
  act (fun s => match task_slot tid s with
                | None => (Err EFUBAR, s)
                | Some k => (Ok tt, set_t (upd (p_t s) k (mkT (t_id (p_t s k)) vn i)) s)
                end) ;;
  ret RUnit.
(** posix.c:2520-2550: the entry of [pi] that refers to [i] *)
Fixpoint find_name (fuel : nat) (pi i pos : N) : PM name :=
  match fuel with
  | O => fail EFUBAR
  | S fuel' =>
    e <- core_dirread pi pos ;;
    match fst e with
    | None => fail EFUBAR
    | Some (nm, j) => if j =? i then ret nm else find_name fuel' pi i (snd e)
    end
  end.
(** A string of the buffer and its terminator are written; outside of the buffer that is a failure
    that the code does not have. *)
Definition store (size : N) (buf : str) : PM unit := check (lenN buf + 1 <=? size) EFUBAR.
(** posix.c:2510-2597: [buf] is the string in the buffer (ulCwdLen - 1 bytes and the terminator) *)
Fixpoint cwd_loop (fuel : nat) (size cwd i : N) (buf : str) : PM str :=
  if i =? ROOT then ret buf else
  match fuel with
  | O => fail EFUBAR
  | S fuel' =>
    pi <- core_num (CDirParent i) ;;
    nm <- find_name fuel pi i 0 ;;
    let nm := name_of nm in
    let sep := negb (i =? cwd) in
    let newlen := nlen nm + (if sep then 1 else 0) in
    check (lenN buf + 1 + newlen <=? size) ERANGE ;;
    let buf' := nm ++ (if sep then [SEP] else []) ++ buf in
    store size buf' ;;
    cwd_loop fuel' size cwd pi buf'
  end.
(** posix.c:2453-2620 red_getcwd *)
Definition red_getcwd (tid : N) (size : N) (fuel : nat) : PM pout :=
  c <- CwdGet tid ;;
  RedCoreVolSetCurrent (fst c) ;;
  store size [] ;;
  buf <- cwd_loop fuel size (snd c) (snd c) [] ;;
  let pre := firstn (strlen (prefix pc (fst c))) (prefix pc (fst c)) in
  check (lenN buf + 1 + lenN pre + 1 <=? size) ERANGE ;;
  store size (pre ++ [SEP] ++ buf) ;;
  ret (RStr (pre ++ [SEP] ++ buf)).

(** Checks made before PosixEnter. *)
Definition precheck (c : pcall) : option errno :=
  match c with
  | PRead _ len | PWrite _ len _ => if INT32_MAX <? len then Some EINVAL else None   (* 1578, 1684 *)
  | PGetcwd size _ => if size =? 0 then Some EINVAL else None                        (* 2444 *)
  | _ => None
  end.
(** The code between PosixEnter and PosixLeave. *)
Definition body (tid : N) (c : pcall) : PM pout :=
  match c with
  | PMount v f => red_mount2 v f | PUmount v f => red_umount2 v f | PFormat v => red_format v | PTransact v => red_transact v
  | PRollback v => red_rollback v | PSetMask v m => red_settransmask v m | PGetMask v => red_gettransmask v | PStatvfs v => red_statvfs v
  | PSync => red_sync
  | POpen p m => red_open tid p m | PUnlink p => red_unlink tid p | PMkdir p => red_mkdir tid p | PRmdir p => red_rmdir tid p
  | PRename a b => red_rename tid a b | PLink a b => red_link tid a b | PClose fd => red_close fd | PRead fd len => red_read fd len
  | PWrite fd len src => red_write fd len src | PFsync fd => red_fsync fd | PLseek fd o w => red_lseek fd o w
  | PFtruncate fd n => red_ftruncate fd n | PFstat fd => red_fstat fd
  | POpendir p => red_opendir tid p | PReaddir d => red_readdir d | PRewinddir d => red_rewinddir d | PClosedir d => red_closedir d
  | PChdir p => red_chdir tid p | PGetcwd n fuel => red_getcwd tid n fuel
  end.

(** * errno: gaTask[].iErrno (0 is None) and the fallback of red_errnoptr *)
Record est := mkE { e_task : N -> option errno; e_glob : option errno }.
(** posix.c:2670-2754 red_errnoptr: the slot, None for iGlobalErrno; registers the task if it can *)
Definition red_errnoptr (tid : N) (s : pst) : option N * pst :=
  if negb (p_init s) then (None, s) else
  match TaskRegister tid s with (Ok k, s') => (Some k, s') | (Err _, s') => (None, s') end.
(** posix.c:3774-3794 PosixReturn; likewise 2151-2154, 2240-2245, 2627-2635.  red_rewinddir has no error. *)
Definition set_errno (tid : N) (e : errno) (x : pst * est) : pst * est :=
  let '(k, s') := red_errnoptr tid (fst x) in
  (s', match k with
       | Some k => mkE (upd (e_task (snd x)) k (Some e)) (e_glob (snd x))
       | None => mkE (e_task (snd x)) (Some e)
       end).
Definition posix_return (tid : N) (r : res pout) (x : pst * est) : res pout * (pst * est) :=
  match r with Ok _ => (r, x) | Err e => (r, set_errno tid e x) end.
(** posix.c:3428-3452 PosixEnter *)
Definition PosixEnter (tid : N) (s : pst) : res unit * pst :=
  if p_init s then match TaskRegister tid s with (Ok _, s') => (Ok tt, s') | (Err e, s') => (Err e, s') end else (Err EINVAL, s).
(** A call of task [tid] that runs without interruption: its result (an error is reported as -1, or
    NULL) and the globals afterwards. *)
Definition api (tid : N) (c : pcall) (x : pst * est) : res pout * (pst * est) :=
  match precheck c with
  | Some e => posix_return tid (Err e) x
  | None =>
    match PosixEnter tid (fst x) with
    | (Err e, s1) => match c with PRewinddir _ => (Ok RUnit, (s1, snd x)) | _ => posix_return tid (Err e) (s1, snd x) end
    | (Ok _, s1) => let '(r, s2) := brun (body tid c) s1 in posix_return tid r (s2, snd x)
    end
  end.

(** posix.c:211-239 red_init, with RedCoreInit (core.c:79-190, which does not fail for the
    configurations considered); 260-319 red_uninit *)
Definition red_init (x : pst * est) : res pout * (pst * est) :=
  let s := fst x in
  if p_init s then (Ok RUnit, x) else
  (Ok RUnit, (mkP true (fun _ => mkH 0 0 false false false false 0) (fun _ => mkT 0 0 ROOT) (p_gen s)
                  (fun n => boot (TDEF pc) (v_d (p_v s n))) (p_cur s) (p_o s) (p_ok s), mkE (fun _ => None) (e_glob (snd x)))).
Definition red_uninit (tid : N) (x : pst * est) : res pout * (pst * est) :=
  let s := fst x in
  if negb (p_init s) then (Ok RUnit, x) else
  match PosixEnter tid s with
  | (Err e, s1) => posix_return tid (Err e) (s1, snd x)
  | (Ok _, s1) =>
    match first (fun n => v_mnt (p_v s1 n)) (NV pc) with
    | Some _ => posix_return tid (Err EBUSY) (s1, snd x)
    | None => (Ok RUnit, (mkP false (p_h s1) (p_t s1) (p_gen s1) (p_v s1) (p_cur s1) (p_o s1) (p_ok s1), snd x))
    end
  end.
End Posix.
