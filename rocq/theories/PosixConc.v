(** Calls of several tasks at the same time (C38).

    Each task runs the code of the API functions in small steps, interleaved in any way.  A step reads or
    changes the shared globals once: the check of gfPosixInited, an acquisition or release of the
    file-system mutex, one atomic action of the body of the function (Posix.v), one scan of the task
    table, or the store to errno.  The calls red_init and red_uninit, which the documentation restricts to
    one task, are not part of these runs. *)
From Verif Require Import Base Count FsState FsDir FsSpec FsMach FsVolume FsReach Posix PosixWp.
From Coq Require Import ZArith.
Ltac Zify.zify_post_hook ::= idtac.

(** Where a task is. [e] is the error that is about to be stored in errno. *)
Inductive tstate :=
| TIdle
| TCall (c : pcall)                     (* called *)
| TEnter (c : pcall)                    (* posix.c:3432 before the check of gfPosixInited *)
| TWait (c : pcall)                     (* 3435 waiting for the mutex *)
| TReg (c : pcall)                      (* 3437 holding the mutex, before TaskRegister *)
| TFail (c : pcall) (e : errno)         (* 3440 holding the mutex, not registered *)
| THold (c : pcall) (m : PM pout)       (* in the function, holding the mutex; [m] remains *)
| TRet (c : pcall) (r : res pout)       (* 3774 PosixReturn; the mutex is released *)
| TLook (c : pcall) (e : errno)         (* 2698 red_errnoptr, waiting for the mutex *)
| TLookH (c : pcall) (e : errno)        (* 2700 holding it, before the scan *)
| TLookR (c : pcall) (e : errno) (k : option N)   (* 2708 holding it, after the scan *)
| TJoin (c : pcall) (e : errno)         (* 2717 waiting for it again *)
| TJoinH (c : pcall) (e : errno)        (* 2719 holding it, before TaskRegister *)
| TJoinR (c : pcall) (e : errno) (k : option N)   (* 2721 holding it, after TaskRegister *)
| TStore (c : pcall) (e : errno) (k : option N)   (* 3790 before the store to errno *)
| TDone (c : pcall) (r : res pout).     (* about to return *)
Record cst := mkC { c_s : pst; c_e : est; c_lock : option N; c_t : N -> tstate }.
Definition goto (x : cst) (tid : N) (t : tstate) : cst := mkC (c_s x) (c_e x) (c_lock x) (upd (c_t x) tid t).
Definition set_s (s : pst) (x : cst) : cst := mkC s (c_e x) (c_lock x) (c_t x).
Definition set_lock (l : option N) (x : cst) : cst := mkC (c_s x) (c_e x) l (c_t x).
Definition set_er (e : est) (x : cst) : cst := mkC (c_s x) e (c_lock x) (c_t x).
(** What can be observed: calls, acquisitions of the mutex by PosixEnter, returns.  ([LEnd] marks the step at which
    the call has had its effect; no other use is made of it.) *)
Inductive lbl := LInv (tid : N) (c : pcall) | LAcq (tid : N) (c : pcall) | LEnd (tid : N) (c : pcall) (r : res pout) | LRet (tid : N) (c : pcall) (r : res pout).

Section Conc.
Variable pc : pcfg.
(** posix.c:3428-3452: the result of a function that could not be entered (red_rewinddir: 2265) *)
Definition refusal (c : pcall) (e : errno) : res pout := match c with PRewinddir _ => Ok RUnit | _ => Err e end.
Definition after_err (c : pcall) (e : errno) : tstate := match refusal c e with Ok o => TDone c (Ok o) | Err e => TRet c (Err e) end.
(** The call had its effect before PosixReturn. *)
Definition early (c : pcall) : bool := match precheck c with None => true | Some _ => false end.
Definition store_errno (k : option N) (e : errno) (x : est) : est :=
  match k with Some k => mkE (upd (e_task x) k (Some e)) (e_glob x) | None => mkE (e_task x) (Some e) end.

Inductive cstep (x : cst) (tid : N) : list lbl -> cst -> Prop :=
| K_call c : c_t x tid = TIdle -> cstep x tid [LInv tid c] (goto x tid (TCall c))
| K_pre c : c_t x tid = TCall c -> cstep x tid [] (goto x tid (match precheck c with Some e => TRet c (Err e) | None => TEnter c end))
| K_check c : c_t x tid = TEnter c -> p_init (c_s x) = true -> cstep x tid [] (goto x tid (TWait c))
| K_uninit c : c_t x tid = TEnter c -> p_init (c_s x) = false -> cstep x tid [LEnd tid c (refusal c EINVAL)] (goto x tid (after_err c EINVAL))
| K_acq c : c_t x tid = TWait c -> c_lock x = None -> cstep x tid [LAcq tid c] (goto (set_lock (Some tid) x) tid (TReg c))
| K_reg c k s' : c_t x tid = TReg c -> TaskRegister pc tid (c_s x) = (Ok k, s') -> cstep x tid [] (goto (set_s s' x) tid (THold c (body pc tid c)))
| K_full c e s' : c_t x tid = TReg c -> TaskRegister pc tid (c_s x) = (Err e, s') -> cstep x tid [] (goto (set_s s' x) tid (TFail c e))
| K_rel_full c e : c_t x tid = TFail c e -> cstep x tid [LEnd tid c (refusal c e)] (goto (set_lock None x) tid (after_err c e))
| K_act c X lb (f : pst -> X * pst) k : c_t x tid = THold c (BAct lb f k) -> cstep x tid [] (goto (set_s (snd (f (c_s x))) x) tid (THold c (k (fst (f (c_s x))))))
| K_leave c r : c_t x tid = THold c (BRet r) -> cstep x tid [LEnd tid c r] (goto (set_lock None x) tid (TRet c r))
| K_ok c o : c_t x tid = TRet c (Ok o) -> cstep x tid [] (goto x tid (TDone c (Ok o)))
| K_err c e : c_t x tid = TRet c (Err e) -> p_init (c_s x) = true -> cstep x tid [] (goto x tid (TLook c e))
| K_err_uninit c e : c_t x tid = TRet c (Err e) -> p_init (c_s x) = false -> cstep x tid (if early c then [] else [LEnd tid c (Err e)]) (goto x tid (TStore c e None))
| K_look c e : c_t x tid = TLook c e -> c_lock x = None -> cstep x tid [] (goto (set_lock (Some tid) x) tid (TLookH c e))
| K_scan c e : c_t x tid = TLookH c e -> cstep x tid (if early c then [] else match task_slot pc tid (c_s x) with Some _ => [LEnd tid c (Err e)] | None => [] end) (goto x tid (TLookR c e (task_slot pc tid (c_s x))))
| K_found c e k : c_t x tid = TLookR c e (Some k) -> cstep x tid [] (goto (set_lock None x) tid (TStore c e (Some k)))
| K_new c e : c_t x tid = TLookR c e None -> cstep x tid [] (goto (set_lock None x) tid (TJoin c e))
| K_join c e : c_t x tid = TJoin c e -> c_lock x = None -> cstep x tid [] (goto (set_lock (Some tid) x) tid (TJoinH c e))
| K_joined c e r s' : c_t x tid = TJoinH c e -> TaskRegister pc tid (c_s x) = (r, s') ->
    cstep x tid (if early c then [] else [LEnd tid c (Err e)]) (goto (set_s s' x) tid (TJoinR c e (match r with Ok k => Some k | Err _ => None end)))
| K_unlock c e k : c_t x tid = TJoinR c e k -> cstep x tid [] (goto (set_lock None x) tid (TStore c e k))
| K_store c e k : c_t x tid = TStore c e k -> cstep x tid [] (goto (set_er (store_errno k e (c_e x)) x) tid (TDone c (Err e)))
| K_ret c r : c_t x tid = TDone c r -> cstep x tid [LRet tid c r] (goto x tid TIdle).
(** Any schedule of the tasks; the trace in the order of the steps. *)
Inductive csteps : cst -> list lbl -> cst -> Prop :=
| Ks_nil x : csteps x [] x
| Ks_step x t x1 tid l x2 : csteps x t x1 -> tid <> 0 -> cstep x1 tid l x2 -> csteps x (t ++ l) x2.
(** No task is in a call. *)
Definition at_rest (x : cst) : Prop := c_lock x = None /\ forall t, c_t x t = TIdle.

(** * Serial runs *)
Inductive serial : pst * est -> list (N * pcall * res pout) -> pst * est -> Prop :=
| Sr_nil x : serial x [] x
| Sr_cons x l x1 tid c r x2 : serial x l x1 -> api pc tid c x1 = (r, x2) -> serial x (l ++ [(tid, c, r)]) x2.
Fixpoint ends (t : list lbl) : list (N * pcall * res pout) :=
  match t with [] => [] | LEnd tid c r :: t' => (tid, c, r) :: ends t' | _ :: t' => ends t' end.
Lemma ends_app a b : ends (a ++ b) = ends a ++ ends b.
Proof. induction a as [|x a IH]; auto. cbn. destruct x; auto. cbn. now rewrite IH. Qed.
End Conc.
