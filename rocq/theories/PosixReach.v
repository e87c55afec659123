(** Histories of calls of any tasks, with power losses, and the invariant of all of them. *)
From Verif Require Import Base Count FsState FsDir FsSpec FsSpecN FsCoreP2 FsMach FsVolume FsVolumeP FsReach PropFs PropNs Posix PosixSpec PosixWp PosixPath PosixPath2 PosixInv PosixStart PosixCalls PosixCalls2 PosixCalls3 PosixCalls4 PosixCalls5 PosixCalls6 PosixCalls7.
From Coq Require Import ZArith.
Ltac Zify.zify_post_hook ::= idtac.

Lemma ceil_lt a d x : 0 < d -> x < a / d + (if a mod d =? 0 then 0 else 1) -> x * d <= a.
Proof.
  intros Hd. pose proof (N.div_mod a d ltac:(lia)) as E. set (q := a / d) in *. set (m := a mod d) in *. clearbody q m. subst a.
  destruct (N.eqb_spec m 0); intros H; nia.
Qed.
Lemma data_blocks g : cfg_ok g -> INODE_DATA_BLOCKS g <= UINT32_MAX.
Proof.
  intros OK. pose proof (ok_IND32 g OK) as H. unfold INODE_DATA_BLOCKS, INODE_DINDIR_BLOCKS. fold (INODE_INDIR_BLOCKS g) in H. destruct (N.leb_spec (DINDIR_POINTERS_MAX g) (DINDIR_POINTERS g)) as [L|L].
  - unfold INODE_DINDIR_BLOCKS_MAX. lia.
  - apply ceil_lt in L; [|unfold DINDIR_DATA_BLOCKS; pose proof (ok_PE g OK); nia]. unfold INODE_DINDIR_BLOCKS_MAX in L. lia.
Qed.
Lemma szmax g : cfg_ok g -> BS g <= 65536 -> (Z.of_N (INODE_SIZE_MAX g) <= INT64_MAX)%Z.
Proof.
  intros OK HB. pose proof (data_blocks g OK) as HD. unfold INODE_SIZE_MAX, INT64_MAX. assert (BS g * INODE_DATA_BLOCKS g <= 65536 * UINT32_MAX) by nia. unfold UINT32_MAX in *. lia.
Qed.

Section Reach.
Variable pc : pcfg.
Hypothesis PC : pcfg_ok pc.
Set Default Proof Using "PC".
Notation SEP := (SEP pc).
Notation NV := (NV pc).
Notation HC := (HC pc).
Notation TC := (TC pc).
Notation MM := (MMASK pc).
Notation TM := (TMASK pc).
Notation TD := (TDEF pc).
Notation VOK := (VOK pc).
Notation VInv := (VInv pc).
Notation PInv := (PInv pc).
Notation wp := (wp pc).
Notation vstep := (vstep pc).
Notation Ctx := (Ctx pc).
Notation mono := (@mono _).

(** * No action sets [p_ok] *)
Ltac mn := match goal with
  | |- PosixWp.mono (bind _ _) => apply mono_bind; [|intros ?]
  | |- PosixWp.mono (catch _ _) => apply mono_catch; [|intros ?]
  | |- PosixWp.mono (core _ _) => apply mono_core
  | |- PosixWp.mono (get _) => apply mono_act; cbn; auto
  | |- PosixWp.mono (modify _) => apply mono_act; cbn; auto
  | |- PosixWp.mono (act _) => apply mono_act; intros ?; cbn
  | |- PosixWp.mono (ret _) => exact I
  | |- PosixWp.mono (fail _) => exact I
  | |- PosixWp.mono (BRet _) => exact I
  | |- PosixWp.mono (check ?b _) => destruct b; exact I
  | |- PosixWp.mono (core_num _ _) => unfold core_num
  | |- PosixWp.mono (core_unit _ _) => unfold core_unit
  | |- PosixWp.mono (core_stat _ _) => unfold core_stat
  | |- PosixWp.mono (core_dirread _ _ _) => unfold core_dirread
  | |- PosixWp.mono (match ?x with _ => _ end) => destruct x
  | |- PosixWp.mono (let '(_, _) := ?x in _) => destruct x
  | |- PosixWp.mono (let _ := _ in _) => cbv zeta
  | |- p_ok (snd (match ?x with _ => _ end)) = true -> _ => destruct x; cbn
  | |- p_ok ?s = true -> p_ok ?s = true => auto
  | |- PosixWp.mono (RedCoreVolSetCurrent _ _) => unfold RedCoreVolSetCurrent
  end.
Ltac mono := repeat mn.
Lemma mono_walk want fuel : forall p last i pi, PosixWp.mono (walk_loop pc fuel p last i pi want).
Proof using. induction fuel as [|fuel IH]; intros; cbn [walk_loop]; [exact I|]. unfold InodeMustBeDir. mono; auto. Qed.
Lemma mono_PathWalk cwd p want : PosixWp.mono (PathWalk pc cwd p want).
Proof using. unfold PathWalk. mono. apply mono_walk. Qed.
Lemma mono_lookup cwd p : PosixWp.mono (RedPathLookup pc cwd p).
Proof using. unfold RedPathLookup. mono. apply mono_PathWalk. Qed.
Lemma mono_toname cwd p e : PosixWp.mono (RedPathToName pc cwd p e).
Proof using. unfold RedPathToName. mono. apply mono_PathWalk. Qed.
Lemma mono_vol path : PosixWp.mono (RedPathVolumeLookup pc path).
Proof using. unfold RedPathVolumeLookup, RedPathVolumePrefixLookup. mono. Qed.
Lemma mono_start tid path : PosixWp.mono (PathStartingPoint pc tid path).
Proof using. unfold PathStartingPoint, RedPathVolumePrefixLookup, CwdGet. mono. Qed.
Lemma mono_check i : PosixWp.mono (InodeUnlinkCheck pc i).
Proof using. unfold InodeUnlinkCheck. mono. Qed.
Lemma mono_open tid path m ty : PosixWp.mono (FildesOpen pc tid path m ty).
Proof using. unfold FildesOpen. mono; auto using mono_start, mono_toname, mono_lookup; unfold ModeTypeCheck; mono. Qed.
Lemma mono_find fuel : forall pi i pos, PosixWp.mono (find_name pc fuel pi i pos).
Proof using. induction fuel as [|fuel IH]; intros; cbn [find_name]; [exact I|]. mono; auto. Qed.
Lemma mono_cwd size cwd fuel : forall i buf, PosixWp.mono (cwd_loop pc fuel size cwd i buf).
Proof using. induction fuel as [|fuel IH]; intros; cbn [cwd_loop]; unfold store; mono; auto. apply mono_find. Qed.
Lemma mono_sync : PosixWp.mono (red_sync pc).
Proof using.
  unfold red_sync. apply mono_bind; [|intros; exact I]. generalize (below NV). intros l.
  assert (X : forall m, PosixWp.mono m -> PosixWp.mono (fold_left (fun m n => catch m (sync_vol pc n)) l m)); [|apply X; exact I].
  induction l as [|n l IH]; intros m Hm; cbn [fold_left]; auto. apply IH. apply mono_catch; auto. intros r. unfold sync_vol. mono.
Qed.
Lemma mono_body tid c : PosixWp.mono (body pc tid c).
Proof using.
  destruct c; cbn [body].
  all: unfold red_mount2, red_umount2, red_format, red_transact, red_rollback, red_settransmask, red_gettransmask, red_statvfs, red_open, red_unlink, red_mkdir, red_rmdir, red_rename, red_link, red_close, red_read, red_write, red_fsync, red_lseek, red_ftruncate, red_fstat, red_opendir, red_readdir, red_rewinddir, red_closedir, red_chdir, red_getcwd, UnlinkSub, FildesClose, CwdGet, CwdResetVol, eisdir_ebadf, to_handle, get_h, set_off, close_h, store.
  all: mono; auto using mono_start, mono_toname, mono_lookup, mono_vol, mono_check, mono_open, mono_cwd, mono_sync; unfold ModeTypeCheck; mono.
Qed.

(** * What each call does *)
(** An int32_t. *)
Definition fdok (c : pcall) : Prop :=
  match c with
  | PClose fd | PRead fd _ | PWrite fd _ _ | PFsync fd | PLseek fd _ _ | PFtruncate fd _ | PFstat fd => (fd < 2147483648)%Z
  | _ => True
  end.
Definition getcwd_post (tid size : N) (s : pst) (r : res pout) (s' : pst) : Prop :=
  still s s' /\ exists n i l, cwd_is pc tid s n i /\ n < NV /\ Forall (pname pc) l /\ (if v_mnt (p_v s n) then vlook pc n (p_v s n) ROOT l = Ok i else i = ROOT /\ l = []) /\
    (r = (if lenN (path_of pc n l) + 1 <=? size then Ok (RStr (path_of pc n l)) else Err ERANGE) \/ r = Err EFUBAR).
Definition open_call_post (tid : N) (path : str) (m : N) (s : pst) (r : res pout) (s' : pst) : Prop :=
  if mode_bad m then r = Err EINVAL /\ s' = s else exists r0, open_post pc tid path m FTYPE_EITHER s r0 s' /\ r = match r0 with Ok (_, fd) => Ok (RFd fd) | Err e => Err e end.
Definition effect (tid : N) (c : pcall) : pst -> res pout -> pst -> Prop :=
  match c with
  | PMount v f => mount_post pc v f | PUmount v f => umount_post pc v f | PFormat v => core_post pc v CFormat | PTransact v => core_post pc v CTransact
  | PRollback v => rollback_post pc v | PSetMask v m => core_post pc v (CMaskSet m) | PGetMask v => getmask_post pc v | PStatvfs v => statvfs_post pc v
  | PSync => sync_post pc
  | POpen p m => open_call_post tid p m | PUnlink p => unlink_post pc tid p FTYPE_EITHER | PMkdir p => mkdir_post pc tid p | PRmdir p => unlink_post pc tid p FTYPE_DIR
  | PRename a b => rename_post pc tid a b | PLink a b => link_post pc tid a b | PClose fd => close_post pc fd | PRead fd len => read_post pc fd len
  | PWrite fd len src => write_post pc fd len src | PFsync fd => fsync_post pc fd | PLseek fd o w => lseek_post pc fd o w
  | PFtruncate fd n => ftruncate_post pc fd n | PFstat fd => fstat_post pc fd
  | POpendir p => opendir_post pc tid p | PReaddir d => readdir_post pc d | PRewinddir d => rewinddir_post pc d | PClosedir d => closedir_post pc d
  | PChdir p => chdir_post pc tid p | PGetcwd n fuel => getcwd_post tid n
  end.
Lemma body_wp tid c s : Ctx tid s -> fdok c -> wp (body pc tid c) (fun r s' => Ctx tid s' /\ effect tid c s r s') s.
Proof.
  intros CX FD. destruct c; cbn [body effect fdok] in *.
  - apply do_mount; auto.
  - apply do_umount; auto.
  - apply do_core; auto.
  - apply do_core; auto.
  - apply do_rollback; auto.
  - apply do_core; eauto.
  - apply do_getmask; auto.
  - apply do_statvfs; auto.
  - apply do_sync; auto.
  - apply do_open; auto.
  - apply do_unlink; auto.
  - apply do_mkdir; auto.
  - apply do_rmdir; auto.
  - apply do_rename; auto.
  - apply do_link; auto.
  - apply do_close; auto.
  - apply do_read; auto.
  - apply do_write; auto.
  - apply do_fsync; auto.
  - apply do_lseek; auto. intros n Hn. apply szmax; [apply (ok_g _ PC n Hn)|apply (ok_bs _ PC n Hn)].
  - apply do_ftruncate; auto.
  - apply do_fstat; auto.
  - apply do_opendir; auto.
  - apply do_readdir; auto.
  - apply do_rewinddir; auto.
  - apply do_closedir; auto.
  - apply do_chdir; auto.
  - destruct (do_getcwd pc PC tid s CX) as (n & i & l & F & A & B & D & E & H). eapply wp_conseq; [apply H|]. intros r s' (CX' & ST & HR). split; auto. split; auto.
    exists n, i, l. split; auto. split; auto. split; auto. split; auto. tauto.
Qed.

(** * Entering the file system *)
(** Task [tid] gets a slot if it has none. *)
Definition joins (tid : N) (s s' : pst) : Prop :=
  s' = s /\ registered pc tid s \/
  (forall k, k < TC -> t_id (p_t s k) <> tid) /\ exists k, k < TC /\ t_id (p_t s k) = 0 /\ s' = set_t (upd (p_t s) k (mkT tid (t_vol (p_t s k)) (t_ino (p_t s k)))) s.
Lemma register_spec tid s r s' : tid <> 0 -> TaskRegister pc tid s = (r, s') ->
  match r with Ok _ => joins tid s s' | Err e => e = EUSERS /\ s' = s /\ forall k, k < TC -> t_id (p_t s k) <> 0 /\ t_id (p_t s k) <> tid end.
Proof using.
  intros NZ E. unfold TaskRegister in E. destruct (task_slot pc tid s) as [k|] eqn:E1.
  - injection E as <- <-. apply first_some in E1 as [H1 H2]. apply N.eqb_eq in H2. left. split; auto. split; auto. eauto.
  - assert (NT : forall k, k < TC -> t_id (p_t s k) <> tid). { intros k Hk X. pose proof (first_none _ _ E1 k Hk) as Y. cbn in Y. apply N.eqb_neq in Y. auto. }
    destruct (first (fun k => t_id (p_t s k) =? 0) TC) as [k|] eqn:E2.
    + injection E as <- <-. apply first_some in E2 as [H1 H2]. apply N.eqb_eq in H2. right. split; auto. exists k. auto.
    + injection E as <- <-. split; auto. split; auto. intros k Hk. split; auto. intros X. pose proof (first_none _ _ E2 k Hk) as Y. cbn in Y. apply N.eqb_neq in Y. auto.
Qed.
Lemma joins_ok tid s s' : tid <> 0 -> PInv s -> p_init s = true -> joins tid s s' -> Ctx tid s' /\ p_ok s' = p_ok s.
Proof using.
  intros NZ HP IN [(-> & RG)|(NT & k & Hk & E0 & ->)]; [split; auto; split; auto|]. destruct HP as [A B D E F G I]. split; auto. split; [split; auto|exact IN|].
  - intros _ j Hj. cbn. unfold upd. destruct (N.eqb_spec j k) as [->|X]; [|exact (F IN j Hj)]. exact (F IN k Hk).
  - intros _ j l Hj Hl. cbn. unfold upd. destruct (N.eqb_spec j k) as [->|X], (N.eqb_spec l k) as [->|Y]; cbn; auto; intros H1 H2.
    + exfalso. apply (NT l Hl). auto.
    + exfalso. apply (NT j Hj). auto.
  - split; auto. exists k. split; auto. cbn. unfold upd. now rewrite N.eqb_refl.
Qed.
Lemma enter_spec tid s r s' : tid <> 0 -> PInv s -> PosixEnter pc tid s = (r, s') ->
  match r with
  | Ok _ => p_init s = true /\ joins tid s s' /\ Ctx tid s' /\ p_ok s' = p_ok s
  | Err e => s' = s /\ (e = EINVAL /\ p_init s = false \/ e = EUSERS /\ p_init s = true /\ forall k, k < TC -> t_id (p_t s k) <> 0 /\ t_id (p_t s k) <> tid)
  end.
Proof using.
  intros NZ HP E. unfold PosixEnter in E. destruct (p_init s) eqn:IN.
  - destruct (TaskRegister pc tid s) as [[k|e] s1] eqn:ER; injection E as <- <-; pose proof (register_spec _ _ _ _ NZ ER) as X.
    + split; auto. split; auto. apply joins_ok; auto.
    + destruct X as (-> & -> & X). auto.
  - injection E as <- <-. auto.
Qed.
(** The slot whose errno [tid] uses. *)
Lemma errnoptr_spec tid s k s' : tid <> 0 -> PInv s -> red_errnoptr pc tid s = (k, s') -> PInv s' /\ p_ok s' = p_ok s /\
  match k with Some k => p_init s = true /\ k < TC /\ t_id (p_t s' k) = tid /\ joins tid s s' | None => s' = s /\ (p_init s = true -> forall j, j < TC -> t_id (p_t s j) <> tid) end.
Proof using.
  intros NZ HP E. unfold red_errnoptr in E. destruct (p_init s) eqn:IN; cbn [negb] in E.
  - destruct (TaskRegister pc tid s) as [[j|e] s1] eqn:ER; injection E as <- <-; pose proof (register_spec _ _ _ _ NZ ER) as X.
    + destruct (joins_ok _ _ _ NZ HP IN X) as (CX & HO). split; [apply CX|]. split; auto. split; auto. unfold TaskRegister in ER.
      destruct (task_slot pc tid s) as [j'|] eqn:E1; [injection ER as <- <-; apply first_some in E1 as [H1 H2]; apply N.eqb_eq in H2; auto|].
      destruct (first (fun k => t_id (p_t s k) =? 0) TC) as [j'|] eqn:E2; [|discriminate]. injection ER as <- <-. apply first_some in E2 as [H1 H2]. split; auto. split; auto. cbn. unfold upd. now rewrite N.eqb_refl.
    + destruct X as (_ & -> & X). split; auto. split; auto. split; auto. intros _ j Hj. apply X; auto.
  - injection E as <- <-. split; auto. split; auto. split; auto. discriminate.
Qed.
Lemma set_errno_ok tid e x : tid <> 0 -> PInv (fst x) -> PInv (fst (set_errno pc tid e x)) /\ p_ok (fst (set_errno pc tid e x)) = p_ok (fst x).
Proof using.
  intros NZ HP. unfold set_errno. destruct (red_errnoptr pc tid (fst x)) as [k s'] eqn:E. destruct (errnoptr_spec _ _ _ _ NZ HP E) as (A & B & _). auto.
Qed.

(** * Histories *)
Definition vdead (n : N) (v : vol) (oc : option call) (v' : vol) : Prop := vstep n v (Some (ECrash oc)) v'.
(** The memory after a restart. *)
Definition restarted (s s' : pst) : Prop := p_init s' = false /\ p_cur s' = 0 /\ (forall n, p_gen s' n = 0).
Inductive pev := EvCall (tid : N) (c : pcall) (r : res pout) | EvInit | EvUninit | EvErrno | EvBack | EvRestart.
Inductive pstep : pst * est -> pev -> pst * est -> Prop :=
| PS_call tid c r x x' : tid <> 0 -> fdok c -> api pc tid c x = (r, x') -> p_ok (fst x') = true -> pstep x (EvCall tid c r) x'
| PS_init r x x' : red_init pc x = (r, x') -> pstep x EvInit x'
| PS_uninit tid r x x' : tid <> 0 -> red_uninit pc tid x = (r, x') -> pstep x EvUninit x'
| PS_errno tid x k s' v : tid <> 0 -> red_errnoptr pc tid (fst x) = (Some k, s') -> pstep x EvErrno (s', mkE (upd (e_task (snd x)) k v) (e_glob (snd x)))   (* the task sets its errno *)
| PS_back s e n v' : n < NV -> vstep n (p_v s n) None v' -> pstep (s, e) EvBack (mkP (p_init s) (p_h s) (p_t s) (p_gen s) (upd (p_v s) n v') (p_cur s) (p_o s) (p_ok s), e)
| PS_crash s e s' e' : (forall n, n < NV -> vdead n (p_v s n) None (p_v s' n)) -> restarted s s' -> pstep (s, e) EvRestart (s', e')
| PS_lost tid c s e s1 s2 oc s' e' : tid <> 0 -> fdok c -> PosixEnter pc tid s = (Ok tt, s1) -> midway (body pc tid c) s1 s2 oc -> p_ok s2 = true ->
    (forall n, n < NV -> vdead n (p_v s2 n) (if n =? p_cur s2 then oc else None) (p_v s' n)) -> restarted s2 s' -> pstep (s, e) EvRestart (s', e').
(** A history; the last event comes first in the list. *)
Inductive psteps : pst * est -> list pev -> pst * est -> Prop :=
| Ps_nil x : psteps x [] x
| Ps_cons x t x1 e x2 : psteps x t x1 -> pstep x1 e x2 -> psteps x (e :: t) x2.
(** Power-on with unformatted media. *)
Definition pstart (x : pst * est) : Prop :=
  p_init (fst x) = false /\ p_cur (fst x) = 0 /\ (forall n, p_gen (fst x) n = 0) /\ forall n, n < NV -> exists d, unformatted d /\ p_v (fst x) n = boot TD d.
Definition preach (x : pst * est) : Prop := exists x0 t, pstart x0 /\ psteps x0 t x.

Lemma boot_VOK n d : n < NV -> unformatted d -> VOK n (boot TD d).
Proof.
  intros Hn U. assert (R : vreach pc n (boot TD d)). { exists [], d. split; auto. constructor. } split; auto.
  exists (Umt None TD). split; [|exact I]. split; [reflexivity|]. split; [reflexivity|]. split; [exact U|reflexivity].
Qed.
Lemma dead_VOK n v oc v' : n < NV -> VOK n v -> (forall c, oc = Some c -> cclean pc c) -> vdead n v oc v' -> VOK n v' /\ v_mnt v' = false.
Proof.
  intros Hn HV CC ST. split; [eapply step_VOK; eauto; destruct oc; cbn; auto|]. inversion ST; reflexivity.
Qed.
Lemma nv_pos : 0 < NV. Proof. pose proof (ok_nv _ PC). lia. Qed.
Lemma restart_inv s s' : (forall n, n < NV -> VOK n (p_v s' n) /\ v_mnt (p_v s' n) = false) -> restarted s s' -> PInv s'.
Proof.
  intros HV (A & B & D). pose proof nv_pos. split; try congruence.
  - intros n Hn. apply HV; auto.
  - intros n Hn. rewrite D. destruct (HV n Hn) as [_ ->]. split; [lia|discriminate].
  - intros _ n Hn. apply HV; auto.
Qed.
Lemma api_inv tid c r x x' : tid <> 0 -> PInv (fst x) -> fdok c -> api pc tid c x = (r, x') -> p_ok (fst x') = true -> PInv (fst x').
Proof.
  intros NZ HP FD E HO. destruct x as [s es]. cbn [fst snd] in *. unfold api in E. destruct (precheck c) as [er|].
  { injection E as <- <-. apply (set_errno_ok tid er (s, es) NZ HP). }
  cbn [fst] in E. destruct (PosixEnter pc tid s) as [[u|er] s1] eqn:EE; pose proof (enter_spec _ _ _ _ NZ HP EE) as EN.
  - destruct EN as (IN & _ & CX & _). destruct (brun (body pc tid c) s1) as [r2 s2] eqn:ER.
    assert (X : p_ok s2 = true -> PInv s2).
    { intros H2. pose proof (wp_brun pc _ (mono_body tid c) _ _ (body_wp tid c s1 CX FD)) as W. rewrite ER in W. cbn [fst snd] in W. apply W; auto. }
    destruct r2 as [o|e2]; cbn in E; injection E as <- <-; cbn [fst] in *.
    + auto.
    + pose proof HO as HO'. unfold set_errno in HO'. cbn [fst] in HO'. destruct (red_errnoptr pc tid s2) as [k3 s3] eqn:E3.
      assert (p_ok s2 = true). { cbn in HO'. unfold red_errnoptr in E3. destruct (negb (p_init s2)); [congruence|]. destruct (TaskRegister pc tid s2) as [q s4] eqn:E4.
        assert (p_ok s4 = p_ok s2) by (pose proof (register_spec _ _ _ _ NZ E4) as Y; destruct q; [destruct Y as [(-> & _)|(_ & k & _ & _ & ->)]; reflexivity|destruct Y as (_ & -> & _); reflexivity]). destruct q; congruence. }
      apply (set_errno_ok tid e2 (s2, es) NZ). auto.
  - destruct EN as (-> & _). destruct c; cbn in E; injection E as <- <-; try apply (set_errno_ok tid er (s, es) NZ HP); auto.
Qed.
Lemma pstep_inv x ev x' : pstep x ev x' -> PInv (fst x) -> PInv (fst x').
Proof.
  intros ST HP. destruct ST as [tid c r x x' NZ FD E HO|r x x' E|tid r x x' NZ E|tid x k s' v NZ E|s e n v' Hn ST|s e s' e' HD RS|tid c s e s1 s2 oc s' e' NZ FD EE MW HO HD RS]; cbn [fst snd] in *.
  - eapply api_inv; eauto.
  - unfold red_init in E. destruct (p_init (fst x)) eqn:IN; injection E as <- <-; auto. cbn [fst]. destruct HP as [A B D _ _ _ I]. specialize (I IN).
    assert (HB : forall n, n < NV -> VOK n (boot TD (v_d (p_v (fst x) n)))). { intros n Hn. eapply (step_VOK pc PC n _ (ECrash None)); eauto; [|exact Logic.I]. apply S_init. auto. }
    split; cbn; auto.
    + intros n Hn. split; [apply D; auto|discriminate].
    + intros _ k Hk X. congruence.
    + intros _ k Hk. split; [apply nv_pos|left; reflexivity].
    + intros _ j k _ _ _ X. congruence.
  - unfold red_uninit in E. destruct (p_init (fst x)) eqn:IN; cbn [negb] in E; [|injection E as <- <-; auto].
    destruct (PosixEnter pc tid (fst x)) as [[u|er] s1] eqn:EE; pose proof (enter_spec _ _ _ _ NZ HP EE) as EN.
    + destruct EN as (_ & _ & CX & _). destruct (first (fun n => v_mnt (p_v s1 n)) NV) as [n|] eqn:EF.
      * cbn in E. injection E as <- <-. apply (set_errno_ok tid EBUSY (s1, snd x) NZ). apply CX.
      * injection E as <- <-. cbn [fst]. destruct (x_inv _ _ _ CX) as [A B D _ _ _ _]. split; auto; try discriminate. cbn. intros _ n Hn. apply (first_none _ _ EF n Hn).
    + destruct EN as (-> & _). cbn in E. injection E as <- <-. apply (set_errno_ok tid er x NZ HP).
  - apply (errnoptr_spec _ _ _ _ NZ HP E).
  - pose proof (back_VOK pc PC n _ _ Hn (i_v _ _ HP n Hn) ST) as HV'. inversion ST as [| | | |? d seq MN MH SQ E1 E2 E3]; subst.
    destruct HP as [A B D E F G I].
    assert (VV : forall m, upd (p_v s) n (vset_seq seq (vset_d d (p_v s n))) m = if m =? n then vset_seq seq (vset_d d (p_v s n)) else p_v s m) by reflexivity.
    assert (MM' : forall m, v_mnt (upd (p_v s) n (vset_seq seq (vset_d d (p_v s n))) m) = v_mnt (p_v s m)). { intros m. rewrite VV. destruct (N.eqb_spec m n) as [->|]; auto. }
    assert (KP : forall m i, m < NV -> v_mnt (p_v s m) = true -> (vdir pc m (p_v s m) i -> vdir pc m (upd (p_v s) n (vset_seq seq (vset_d d (p_v s n))) m) i) /\ (vfile pc m (p_v s m) i -> vfile pc m (upd (p_v s) n (vset_seq seq (vset_d d (p_v s n))) m) i)).
    { intros m i Hm MNm. rewrite VV. destruct (N.eqb_spec m n) as [->|]; [|auto]. destruct (VOK_W pc PC _ _ Hn (A n Hn) MNm) as (W & C & SA & _).
      pose proof (step_sim _ (ok_g _ PC n Hn) _ MM TM TD _ _ _ _ SA ST) as SA'. cbn beta iota in SA'.
      split; intros X.
      - apply (vdir_W pc PC n _ W C _ _ i Hn SA'). apply (vdir_W pc PC n _ W C _ _ i Hn SA). auto.
      - apply (vfile_W pc PC n _ W C _ _ i Hn SA'). apply (vfile_W pc PC n _ W C _ _ i Hn SA). auto. }
    split; auto.
    + intros m Hm. cbn. unfold upd. destruct (N.eqb_spec m n) as [->|]; auto.
    + intros m Hm. cbn [p_v p_gen]. rewrite MM'. auto.
    + intros IN k Hk HN. destruct (E IN k Hk HN) as (H1 & H2 & H3). unfold handle_ok. cbn [p_v]. rewrite MM'. split; auto. split; auto. destruct (KP (h_vol (p_h s k)) (h_ino (p_h s k)) H1 H2) as [K1 K2]. cbn [p_h].
      destruct (h_dir (p_h s k)); auto. destruct H3. split; auto.
    + intros IN k Hk. destruct (F IN k Hk) as (H1 & H2). unfold task_ok. cbn [p_v p_t]. rewrite MM'. split; auto. destruct H2 as [H2|[H2 H3]]; auto. right. split; auto. apply (KP _ _ H1 H2). auto.
    + intros IN m Hm. cbn [p_v]. rewrite MM'. auto.
  - eapply restart_inv; eauto. intros n Hn. apply (dead_VOK n (p_v s n) None); auto; [apply HP; auto|discriminate].
  - pose proof (enter_spec _ _ _ _ NZ HP EE) as (IN & _ & CX & _). destruct (wp_midway pc _ _ _ _ MW (mono_body tid c) _ (body_wp tid c s1 CX FD) (x_v _ _ _ CX) HO) as (V2 & CC).
    eapply restart_inv; eauto. intros n Hn. apply (dead_VOK n (p_v s2 n) (if n =? p_cur s2 then oc else None)); auto. intros c' E. destruct (n =? p_cur s2); [auto|discriminate].
Qed.
(** Every reachable state satisfies the invariant. *)
Theorem preach_inv x : preach x -> PInv (fst x).
Proof.
  intros (x0 & t & (A & B & D & E) & ST). assert (P0 : PInv (fst x0)).
  { pose proof nv_pos. split; try congruence.
    - intros n Hn. destruct (E n Hn) as (d & U & ->). apply boot_VOK; auto.
    - intros n Hn. rewrite D. destruct (E n Hn) as (d & U & ->). split; [lia|discriminate].
    - intros _ n Hn. destruct (E n Hn) as (d & U & ->). reflexivity. }
  induction ST as [|x t x1 e x2 ST IH S1]; auto. eapply pstep_inv; eauto.
Qed.
Lemma preach_step x e x' : preach x -> pstep x e x' -> preach x'.
Proof using. intros (x0 & t & A & B) ST. exists x0, (e :: t). split; auto. econstructor; eauto. Qed.
Lemma preach_steps x t x' : preach x -> psteps x t x' -> preach x'.
Proof using. intros (x0 & t0 & A & B) ST. exists x0. induction ST as [|x t x1 e x2 ST IH S1]; [eauto|]. destruct (IH B) as (t2 & _ & C). exists (e :: t2). split; auto. econstructor; eauto. Qed.

(** * A call from a reachable state *)
Lemma errnoptr_reg tid s : Ctx tid s -> exists k, red_errnoptr pc tid s = (Some k, s).
Proof using.
  intros CX. unfold red_errnoptr, TaskRegister. rewrite (x_init _ _ _ CX). cbn [negb].
  destruct (slot_spec pc tid s (x_inv _ _ _ CX) (x_init _ _ _ CX) (x_reg _ _ _ CX)) as (k & -> & _). eauto.
Qed.
Lemma register_ok tid s r s' : tid <> 0 -> TaskRegister pc tid s = (r, s') -> p_ok s' = p_ok s.
Proof using.
  intros NZ E. pose proof (register_spec _ _ _ _ NZ E) as Y. destruct r; [destruct Y as [(-> & _)|(_ & k & _ & _ & ->)]; reflexivity|destruct Y as (_ & -> & _); reflexivity].
Qed.
(** The call was not admitted: the file system is not initialised, or there are no free task slots. *)
Definition refused (tid : N) (s : pst) (e : errno) : Prop :=
  e = EINVAL /\ p_init s = false \/ e = EUSERS /\ p_init s = true /\ forall k, k < TC -> t_id (p_t s k) <> 0 /\ t_id (p_t s k) <> tid.
Theorem api_effect tid c r x x' : tid <> 0 -> preach x -> fdok c -> precheck c = None -> api pc tid c x = (r, x') -> p_ok (fst x') = true ->
  (exists s1, p_init (fst x) = true /\ joins tid (fst x) s1 /\ Ctx tid s1 /\ effect tid c s1 r (fst x') /\ Ctx tid (fst x')) \/
  (exists e, refused tid (fst x) e /\ fst x' = fst x /\ (r = Err e \/ r = Ok RUnit /\ exists d, c = PRewinddir d)).
Proof.
  intros NZ R FD PK E HO. pose proof (preach_inv x R) as HP. destruct x as [s es]. cbn [fst snd] in *. unfold api in E. rewrite PK in E. cbn [fst snd] in E.
  destruct (PosixEnter pc tid s) as [[u|er] s1] eqn:EE; pose proof (enter_spec _ _ _ _ NZ HP EE) as EN.
  - left. destruct EN as (IN & JN & CX & _). exists s1. split; auto. split; auto. split; auto. destruct (brun (body pc tid c) s1) as [r2 s2] eqn:ER.
    pose proof (wp_brun pc _ (mono_body tid c) _ _ (body_wp tid c s1 CX FD)) as W. rewrite ER in W. cbn [fst snd] in W.
    destruct r2 as [o|e2]; cbn in E; injection E as <- <-; cbn [fst] in *.
    + destruct (W HO). auto.
    + unfold set_errno in *. cbn [fst snd] in *. destruct (red_errnoptr pc tid s2) as [k3 s3] eqn:E3. cbn [fst] in *.
      assert (p_ok s2 = true) as O2. { unfold red_errnoptr in E3. destruct (negb (p_init s2)); [congruence|]. destruct (TaskRegister pc tid s2) as [q s4] eqn:E4. pose proof (register_ok _ _ _ _ NZ E4). destruct q; congruence. }
      destruct (W O2) as (CX2 & EF). destruct (errnoptr_reg tid s2 CX2) as (k & EK). rewrite EK in E3. injection E3 as _ <-. auto.
  - right. destruct EN as (-> & EN). exists er. split; [exact EN|].
    assert (X : fst (set_errno pc tid er (s, es)) = s).
    { unfold set_errno. cbn [fst snd]. unfold red_errnoptr. destruct EN as [(_ & ->)|(_ & -> & FU)]; [reflexivity|]. cbn [negb]. destruct (TaskRegister pc tid s) as [q s4] eqn:E4.
      pose proof (register_spec _ _ _ _ NZ E4) as Y. destruct q; [|destruct Y as (_ & -> & _); reflexivity]. exfalso. destruct Y as [(_ & _ & k & Hk & EK)|(_ & k & Hk & EK & _)]; destruct (FU k Hk); auto. }
    destruct c; cbn in E; injection E as <- <-; cbn [fst snd] in *; try (split; [exact X|left; reflexivity]). split; auto. right. split; eauto.
Qed.
End Reach.
