(** No function changes gfPosixInited or the task identities between PosixEnter and PosixLeave. *)
From Verif Require Import Base Count FsState FsDir FsSpec FsMach FsVolume FsReach Posix PosixWp PosixReach.
From Coq Require Import ZArith.
Ltac Zify.zify_post_hook ::= idtac.

Definition same_ids (s s' : pst) : Prop := p_init s' = p_init s /\ forall j, t_id (p_t s' j) = t_id (p_t s j).
Lemma same_ids_refl s : same_ids s s. Proof. split; auto. Qed.
Fixpoint keep {A} (m : B A) : Prop :=
  match m with BRet _ => True | BAct _ f k => (forall s, same_ids s (snd (f s))) /\ forall x, keep (k x) end.
Lemma keep_brun {A} (m : B A) : keep m -> forall s, same_ids s (snd (brun m s)).
Proof.
  induction m as [a|X lb f k IH]; cbn; intros K s; [apply same_ids_refl|]. destruct K as [K1 K2]. destruct (K1 s) as [A1 A2]. destruct (IH _ (K2 (fst (f s))) (snd (f s))) as [B1 B2].
  split; [congruence|]. intros j. now rewrite B2, A2.
Qed.
Lemma keep_bbind {A C} (m : B A) (f : A -> B C) : keep m -> (forall a, keep (f a)) -> keep (bbind m f).
Proof. induction m as [a|X lb g k IH]; cbn; auto. intros [H1 H2] H. split; auto. Qed.
Lemma keep_bind {A C} (m : PM A) (f : A -> PM C) : keep m -> (forall a, keep (f a)) -> keep (bind m f).
Proof. intros H1 H2. apply keep_bbind; auto. intros [a|e]; cbn; auto. Qed.
Lemma keep_catch {A C} (m : PM A) (f : res A -> PM C) : keep m -> (forall a, keep (f a)) -> keep (catch m f).
Proof. apply keep_bbind. Qed.
Lemma keep_act {A} (f : pst -> res A * pst) : (forall s, same_ids s (snd (f s))) -> keep (act f).
Proof. intros H. split; auto. intros; exact I. Qed.
Section Keep.
Variable pc : pcfg.
Lemma keep_core c : keep (core pc c).
Proof.
  split; [|intros; exact I]. intros s. unfold core_act. destruct (p_o s 0) as [o1 o2]. destruct (exec (gs pc (p_cur s)) (ATOM pc (p_cur s)) (MMASK pc) (TMASK pc) c o1 o2 (p_v s (p_cur s))) as [[r v'] z]. split; auto.
Qed.
Ltac kp := match goal with
  | |- keep (bind _ _) => apply keep_bind; [|intros ?]
  | |- keep (catch _ _) => apply keep_catch; [|intros ?]
  | |- keep (core _ _) => apply keep_core
  | |- keep (get _) => apply keep_act; intros ?; cbn; apply same_ids_refl
  | |- keep (modify _) => apply keep_act; intros ?; cbn
  | |- keep (act _) => apply keep_act; intros ?; cbn
  | |- keep (ret _) => exact I
  | |- keep (fail _) => exact I
  | |- keep (BRet _) => exact I
  | |- keep (check ?b _) => destruct b; exact I
  | |- keep (core_num _ _) => unfold core_num
  | |- keep (core_unit _ _) => unfold core_unit
  | |- keep (core_stat _ _) => unfold core_stat
  | |- keep (core_dirread _ _ _) => unfold core_dirread
  | |- keep (match ?x with _ => _ end) => destruct x
  | |- keep (let '(_, _) := ?x in _) => destruct x
  | |- keep (let _ := _ in _) => cbv zeta
  | |- same_ids ?s ?s => apply same_ids_refl
  | |- same_ids ?s (snd (match ?x with _ => _ end)) => destruct x; cbn
  | |- same_ids ?s (if ?x then _ else _) => destruct x; cbn
  | |- same_ids ?s _ => split; [reflexivity|]; cbn; try reflexivity
  | |- keep (RedCoreVolSetCurrent _ _) => unfold RedCoreVolSetCurrent
  end.
Ltac keep := repeat kp.
Lemma keep_walk want fuel : forall p last i pi, keep (walk_loop pc fuel p last i pi want).
Proof. induction fuel as [|fuel IH]; intros; cbn [walk_loop]; [exact I|]. unfold InodeMustBeDir. keep; auto. Qed.
Lemma keep_PathWalk cwd p want : keep (PathWalk pc cwd p want).
Proof. unfold PathWalk. keep. apply keep_walk. Qed.
Lemma keep_lookup cwd p : keep (RedPathLookup pc cwd p).
Proof. unfold RedPathLookup. keep. apply keep_PathWalk. Qed.
Lemma keep_toname cwd p e : keep (RedPathToName pc cwd p e).
Proof. unfold RedPathToName. keep. apply keep_PathWalk. Qed.
Lemma keep_vol path : keep (RedPathVolumeLookup pc path).
Proof. unfold RedPathVolumeLookup, RedPathVolumePrefixLookup. keep. Qed.
Lemma keep_start tid path : keep (PathStartingPoint pc tid path).
Proof. unfold PathStartingPoint, RedPathVolumePrefixLookup, CwdGet. keep. Qed.
Lemma keep_check i : keep (InodeUnlinkCheck pc i).
Proof. unfold InodeUnlinkCheck. keep. Qed.
Lemma keep_open tid path m ty : keep (FildesOpen pc tid path m ty).
Proof. unfold FildesOpen. keep; auto using keep_start, keep_toname, keep_lookup; unfold ModeTypeCheck; keep. Qed.
Lemma keep_find fuel : forall pi i pos, keep (find_name pc fuel pi i pos).
Proof. induction fuel as [|fuel IH]; intros; cbn [find_name]; [exact I|]. keep; auto. Qed.
Lemma keep_cwd size cwd fuel : forall i buf, keep (cwd_loop pc fuel size cwd i buf).
Proof. induction fuel as [|fuel IH]; intros; cbn [cwd_loop]; unfold store; keep; auto. apply keep_find. Qed.
Lemma keep_sync : keep (red_sync pc).
Proof.
  unfold red_sync. apply keep_bind; [|intros; exact I]. generalize (below (NV pc)). intros l.
  assert (X : forall m, keep m -> keep (fold_left (fun m n => catch m (sync_vol pc n)) l m)); [|apply X; exact I].
  induction l as [|n l IH]; intros m Hm; cbn [fold_left]; auto. apply IH. apply keep_catch; auto. intros r. unfold sync_vol. keep.
Qed.
Lemma keep_body tid c : keep (body pc tid c).
Proof.
  destruct c; cbn [body].
  all: unfold red_mount2, red_umount2, red_format, red_transact, red_rollback, red_settransmask, red_gettransmask, red_statvfs, red_open, red_unlink, red_mkdir, red_rmdir, red_rename, red_link, red_close, red_read, red_write, red_fsync, red_lseek, red_ftruncate, red_fstat, red_opendir, red_readdir, red_rewinddir, red_closedir, red_chdir, red_getcwd, UnlinkSub, FildesClose, CwdGet, CwdResetVol, eisdir_ebadf, to_handle, get_h, set_off, close_h, store.
  all: keep; auto using keep_start, keep_toname, keep_lookup, keep_vol, keep_check, keep_open, keep_cwd, keep_sync; unfold ModeTypeCheck; keep.
  all: intros j; unfold upd; match goal with |- t_id (if ?b then _ else _) = _ => destruct b eqn:EB end; cbn; auto.
  apply N.eqb_eq in EB. now subst.
Qed.
End Keep.
