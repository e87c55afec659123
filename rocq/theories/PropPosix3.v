(** Files in use (C28), unmount and rollback (C29), tasks (C30), red_getcwd (C35). *)
From Verif Require Import Base Count FsState FsDir FsSpec FsSpecN FsCoreP2 FsMach FsVolume FsVolumeP FsReach PropFs PropNs Posix PosixSpec PosixWp PosixPath PosixPath2 PosixInv PosixStart PosixCalls PosixCalls2 PosixCalls3 PosixCalls4 PosixCalls5 PosixCalls6 PosixCalls7 PosixReach PosixSame PropPosix.
From Coq Require Import ZArith.
Ltac Zify.zify_post_hook ::= idtac.

Section PropPosix3.
Variable pc : pcfg.
Hypothesis PC : pcfg_ok pc.
Set Default Proof Using "PC".
Notation SEP := (SEP pc).
Notation NV := (NV pc).
Notation HC := (HC pc).
Notation TC := (TC pc).
Notation prefix := (prefix pc).
Notation comps := (comps SEP).
Notation PInv := (PInv pc).
Notation Ctx := (Ctx pc).
Notation preach := (preach pc).
Notation pstep := (pstep pc).
Notation psteps := (psteps pc).
Notation ready := (ready pc).
Notation live := (live pc).
Notation starts := (starts pc).
Notation vask := (vask pc).
Notation vdir := (vdir pc).
Notation vfile := (vfile pc).
Notation vlook := (vlook pc).
Notation vlook_name := (vlook_name pc).
Notation only_volume := (only_volume pc).
Notation at_name := (at_name pc).
Notation at_file := (at_file pc).
Notation pinned := (pinned pc).
Notation in_use := (in_use pc).
Notation cwd_is := (cwd_is pc).
Notation SZMAX n := (INODE_SIZE_MAX (gs pc n)).

(** * C28: files and directories in use *)
(** At any time every open handle refers to an existing inode of a mounted volume, of the type it had when it was opened. *)
Theorem C28_handles x k : preach x -> p_init (fst x) = true -> k < HC -> h_ino (p_h (fst x) k) <> 0 ->
  let h := p_h (fst x) k in let n := h_vol h in n < NV /\ v_mnt (p_v (fst x) n) = true /\
  exists nl sz bl, vask n (p_v (fst x) n) (CStat (h_ino h)) = Ok (OStat (h_dir h, nl, sz, bl)).
Proof.
  intros R IN Hk NZ h n. destruct (i_h _ _ (preach_inv pc PC x R) IN k Hk NZ) as (A & B & C). fold h in C. split; auto. split; auto.
  fold n in C. destruct (h_dir h); [exact C|]. apply C.
Qed.
(** The working directory of a task is a root directory, or an existing directory of a mounted volume. *)
Theorem C28_cwd x tid n i : preach x -> p_init (fst x) = true -> cwd_is tid (fst x) n i -> n < NV /\ (i = ROOT \/ v_mnt (p_v (fst x) n) = true /\ exists nl sz bl, vask n (p_v (fst x) n) (CStat i) = Ok (OStat (true, nl, sz, bl))).
Proof.
  intros R IN (k & Hk & A & B & C). destruct (i_t _ _ (preach_inv pc PC x R) IN k Hk) as (D & E). rewrite B, C in *. auto.
Qed.
(** Unlinking the only name of an inode in use fails with EBUSY and changes nothing (red_rmdir checks first that
    it is a directory). *)
Theorem C28_unlink x tid path r x' n d nm j : preach x -> ready tid x -> pstep x (EvCall tid (PUnlink path) r) x' ->
  at_name tid path EBUSY (fst x) (Ok (n, d, nm)) -> vask n (p_v (fst x) n) (CLookup d nm) = Ok (ONum j) -> pinned (fst x) n j -> r = Err EBUSY /\ quiet (fst x) (fst x').
Proof.
  intros R RD ST A L P. destruct (call_ready pc PC _ _ _ _ _ R RD ST eq_refl) as ((b & B & E) & _). rewrite <- (at_name_fun pc PC _ _ _ _ _ _ R RD A B) in E. rewrite L in E.
  destruct E as [(_ & _ & X & _)|[(-> & S & _)|[(_ & _ & X & _)|(_ & _ & X & _)]]]; try discriminate; [|tauto]. split; auto. now apply still_quiet.
Qed.
Theorem C28_rmdir x tid path r x' n d nm j : preach x -> ready tid x -> pstep x (EvCall tid (PRmdir path) r) x' ->
  at_name tid path EBUSY (fst x) (Ok (n, d, nm)) -> vask n (p_v (fst x) n) (CLookup d nm) = Ok (ONum j) -> pinned (fst x) n j -> 
  (r = Err EBUSY \/ r = Err ENOTDIR /\ vfile n (p_v (fst x) n) j) /\ quiet (fst x) (fst x').
Proof.
  intros R RD ST A L P. destruct (call_ready pc PC _ _ _ _ _ R RD ST eq_refl) as ((b & B & E) & _). rewrite <- (at_name_fun pc PC _ _ _ _ _ _ R RD A B) in E. rewrite L in E.
  destruct E as [(-> & S & _ & X)|[(-> & S & _)|[(_ & _ & X & _)|(_ & _ & X & _)]]]; try discriminate; try tauto; (split; [|now apply still_quiet]); auto.
Qed.
Theorem C28_rename x tid old new r x' n d0 nm0 d nm j : preach x -> ready tid x -> pstep x (EvCall tid (PRename old new) r) x' ->
  at_name tid old EBUSY (fst x) (Ok (n, d0, nm0)) -> at_name tid new EBUSY (fst x) (Ok (n, d, nm)) -> vask n (p_v (fst x) n) (CLookup d nm) = Ok (ONum j) -> pinned (fst x) n j ->
  r = Err EBUSY /\ quiet (fst x) (fst x').
Proof.
  intros R RD ST A A' L P. destruct (call_ready pc PC _ _ _ _ _ R RD ST eq_refl) as ((b & b' & B & B' & E) & _). destruct A as (a & A & EA), A' as (a' & A' & EA').
  rewrite <- (starts_fun pc PC _ _ _ _ _ R RD B A) in *. rewrite <- (starts_fun pc PC _ _ _ _ _ R RD B' A') in *. destruct a as [[[n1 i1] l1]|e]; [|discriminate]. destruct a' as [[[n2 i2] l2]|e]; [|discriminate].
  destruct (vlook_name n1 EBUSY (p_v (fst x) n1) i1 l1) as [[d1 m1]|e] eqn:E1; [|discriminate]. injection EA as -> -> ->. destruct (vlook_name n2 EBUSY (p_v (fst x) n2) i2 l2) as [[d2 m2]|e] eqn:E2; [|discriminate]. injection EA' as -> -> ->.
  rewrite N.eqb_refl in E. cbn [negb] in E. rewrite E2, L in E. destruct E as [(-> & S & _)|(X & _)]; [|tauto]. split; auto. now apply still_quiet.
Qed.

(** * C29: unmount and rollback *)
(** While a handle is open on the volume, an unforced unmount fails with EBUSY and changes nothing;
    otherwise the volume is unmounted, exactly the handles open on it are closed, and no task has a
    working directory on it other than its root. *)
Theorem C29_umount x tid path flags r x' n : preach x -> ready tid x -> pstep x (EvCall tid (PUmount path flags) r) x' -> volume_path pc path (Ok n) -> v_mnt (p_v (fst x) n) = true -> flags = 0 \/ flags = 1 ->
  flags = 0 /\ any_open pc (fst x) n /\ r = Err EBUSY /\ quiet (fst x) (fst x') /\ (forall k, k < TC -> p_t (fst x') k = p_t (fst x) k) \/
  (flags = 1 \/ ~ any_open pc (fst x) n) /\ r = Ok RUnit /\ v_mnt (p_v (fst x') n) = false /\ (forall m, m <> n -> p_v (fst x') m = p_v (fst x) m) /\
    (forall k, k < HC -> is_open (fst x) n k -> h_ino (p_h (fst x') k) = 0) /\ (forall k, k < HC -> ~ is_open (fst x) n k -> p_h (fst x') k = p_h (fst x) k) /\
    (forall t i, cwd_is t (fst x') n i -> i = ROOT) /\ forall t m i, m <> n -> (cwd_is t (fst x') m i <-> cwd_is t (fst x) m i).
Proof.
  intros R RD ST VP MN FL. destruct (call_ready pc PC _ _ _ _ _ R RD ST eq_refl) as (E & _). cbn [effect] in E. unfold umount_post in E.
  assert (flags =? N.land flags 1 = true) as X by (destruct FL as [-> | ->]; reflexivity). rewrite X in E. cbn [negb] in E. destruct E as (v & VP' & E).
  rewrite <- (volume_path_fun pc PC _ _ _ VP VP') in E. destruct E as (Hn & E). rewrite MN in E. cbn [negb] in E.
  destruct E as [(F & AO & -> & S)|(F & -> & A1 & A2 & A3 & A4 & A5 & v' & V1 & V2)].
  - left. split; [destruct FL as [-> | ->]; [auto|discriminate]|]. split; auto. split; auto. split; [now apply still_quiet|]. destruct S as ((_ & _ & -> & _) & _). auto.
  - right. split; [destruct F as [F|F]; auto; destruct FL as [-> | ->]; [discriminate|auto]|]. split; auto.
    destruct (step_umount pc PC n _ _ _ Hn (i_v _ _ (preach_inv pc PC x R) n Hn) MN V1) as (_ & MN').
    split; [now rewrite V2, N.eqb_refl|]. split; [intros m Hm; rewrite V2; destruct (N.eqb_spec m n); congruence|].
    split; [intros k Hk O; now rewrite (A4 k Hk O)|]. split; [exact A5|]. split.
    + intros t i (k & Hk & _ & B & D). rewrite (A3 k Hk) in *. destruct (N.eqb_spec (t_vol (p_t (fst x) k)) n); cbn in *; congruence.
    + intros t m i Hm. split; intros (k & Hk & A & B & D); exists k; rewrite (A3 k Hk) in *; destruct (N.eqb_spec (t_vol (p_t (fst x) k)) n); cbn in *; auto; congruence.
Qed.
Theorem C29_rollback x tid path r x' n : preach x -> ready tid x -> pstep x (EvCall tid (PRollback path) r) x' -> volume_path pc path (Ok n) ->
  any_open pc (fst x) n /\ r = Err EBUSY /\ quiet (fst x) (fst x') /\ (forall k, k < TC -> p_t (fst x') k = p_t (fst x) k) \/
  ~ any_open pc (fst x) n /\ exists o, only_volume (fst x) n CRollback o (fst x') /\ r = unit_of o /\ (r = Ok RUnit -> forall t i, cwd_is t (fst x') n i -> i = ROOT) /\
     forall t m i, m <> n \/ r <> Ok RUnit -> (cwd_is t (fst x') m i <-> cwd_is t (fst x) m i).
Proof.
  intros R RD ST VP. destruct (call_ready pc PC _ _ _ _ _ R RD ST eq_refl) as (E & _). destruct E as (v & VP' & E).
  rewrite <- (volume_path_fun pc PC _ _ _ VP VP') in E. destruct E as (Hn & E).
  destruct E as [(AO & -> & S)|(AO & o & v' & V1 & V2 & -> & A1 & A2 & A3 & A4)].
  - left. split; auto. split; auto. split; [now apply still_quiet|]. destruct S as ((_ & _ & -> & _) & _). auto.
  - right. split; auto. exists o. split.
    { split; [intros; congruence|]. split; [intros; congruence|]. split; [intros m Hm; rewrite V2; destruct (N.eqb_spec m n); congruence|]. rewrite V2, N.eqb_refl. auto. }
    split; auto. destruct o as [o|e]; cbn [unit_of].
    + split.
      * intros _ t i (k & Hk & _ & B & D). rewrite (A4 k Hk) in *. destruct (N.eqb_spec (t_vol (p_t (fst x) k)) n); cbn in *; congruence.
      * intros t m i [Hm|Hm]; [|congruence]. split; intros (k & Hk & A & B & D); exists k; rewrite (A4 k Hk) in *; destruct (N.eqb_spec (t_vol (p_t (fst x) k)) n); cbn in *; auto; congruence.
    + split; [discriminate|]. intros t m i _. unfold PosixStart.cwd_is. rewrite A4. tauto.
Qed.
(** At any time: no handle is open on a volume that is not mounted, and working directories there are root directories. *)
Theorem C29_unmounted x n : preach x -> p_init (fst x) = true -> v_mnt (p_v (fst x) n) = false -> ~ any_open pc (fst x) n /\ forall t i, cwd_is t (fst x) n i -> i = ROOT.
Proof.
  intros R IN MN. split.
  - intros (k & Hk & A & B). destruct (C28_handles x k R IN Hk A) as (_ & X & _). rewrite B in X. congruence.
  - intros t i CW. destruct (C28_cwd x t n i R IN CW) as (_ & [X|(X & _)]); congruence.
Qed.

(** * C30: tasks *)
(** A task has at most one slot. *)
Theorem C30_slot x j k : preach x -> p_init (fst x) = true -> j < TC -> k < TC -> t_id (p_t (fst x) j) = t_id (p_t (fst x) k) -> t_id (p_t (fst x) j) <> 0 -> j = k.
Proof. intros R IN. apply (i_d _ _ (preach_inv pc PC x R) IN). Qed.
(** At most [TC] different tasks are registered. *)
Theorem C30_limit x l : preach x -> NoDup l -> (forall t, In t l -> registered pc t (fst x)) -> lenN l <= TC.
Proof.
  intros R ND AL. assert (INC : incl l (map (fun k => t_id (p_t (fst x) (N.of_nat k))) (seq 0 (N.to_nat TC)))).
  { intros t Ht. destruct (AL t Ht) as (_ & k & Hk & E). apply in_map_iff. exists (N.to_nat k). rewrite N2Nat.id. split; auto. apply in_seq. lia. }
  pose proof (NoDup_incl_length ND INC) as H. rewrite map_length, seq_length in H. unfold lenN. lia.
Qed.
(** A task that finds all slots taken is refused with EUSERS; nothing changes. *)
Theorem C30_full x tid c r x' : preach x -> p_init (fst x) = true -> pstep x (EvCall tid c r) x' -> precheck c = None -> (forall k, k < TC -> t_id (p_t (fst x) k) <> 0 /\ t_id (p_t (fst x) k) <> tid) ->
  fst x' = fst x /\ (r = Err EUSERS \/ r = Ok RUnit /\ exists d, c = PRewinddir d).
Proof.
  intros R IN ST PK FU. inversion ST; subst. destruct (api_effect pc PC tid c r x x') as [(s1 & _ & J & _)|(e & RF & A & B)]; auto.
  - exfalso. destruct J as [(_ & _ & k & Hk & E)|(_ & k & Hk & E & _)]; destruct (FU k Hk); auto.
  - split; auto. destruct RF as [(_ & X)|(-> & _)]; [congruence|auto].
Qed.
(** Otherwise it is registered from then on. *)
Theorem C30_registers x tid c r x' : preach x -> p_init (fst x) = true -> pstep x (EvCall tid c r) x' -> precheck c = None -> registered pc tid (fst x') \/
  (forall k, k < TC -> t_id (p_t (fst x) k) <> 0 /\ t_id (p_t (fst x) k) <> tid).
Proof.
  intros R IN ST PK. inversion ST; subst. destruct (api_effect pc PC tid c r x x') as [(s1 & _ & J & _ & _ & CX)|(e & RF & A & B)]; auto.
  - left. apply CX.
  - right. destruct RF as [(_ & X)|(_ & _ & X)]; [congruence|auto].
Qed.
(** A successful call changes no errno. A failing call sets only the errno of the calling task; if the task
    has no slot (the file system is not initialised, or all slots are taken), only the global one. *)
Theorem C30_errno x tid c r x' : preach x -> pstep x (EvCall tid c r) x' ->
  match r with
  | Ok _ => snd x' = snd x
  | Err e =>
      (exists k, k < TC /\ t_id (p_t (fst x') k) = tid /\ p_init (fst x') = true /\ e_task (snd x') k = Some e /\ (forall j, j <> k -> e_task (snd x') j = e_task (snd x) j) /\ e_glob (snd x') = e_glob (snd x)) \/
      ((p_init (fst x') = true -> ~ registered pc tid (fst x')) /\ (forall j, e_task (snd x') j = e_task (snd x) j) /\ e_glob (snd x') = Some e)
  end.
Proof.
  intros R ST. inversion ST as [? ? ? ? ? NZ FD E HO| | | | | |]; subst. pose proof (preach_inv pc PC x R) as HP.
  assert (SE : forall e y y', set_errno pc tid e y = y' -> PInv (fst y) -> snd y = snd x ->
     (exists k, k < TC /\ t_id (p_t (fst y') k) = tid /\ p_init (fst y') = true /\ e_task (snd y') k = Some e /\ (forall j, j <> k -> e_task (snd y') j = e_task (snd x) j) /\ e_glob (snd y') = e_glob (snd x)) \/
      ((p_init (fst y') = true -> ~ registered pc tid (fst y')) /\ (forall j, e_task (snd y') j = e_task (snd x) j) /\ e_glob (snd y') = Some e)).
  { intros e y y' <- HY EY. unfold set_errno. destruct (red_errnoptr pc tid (fst y)) as [k s'] eqn:EP. destruct (errnoptr_spec pc _ _ _ _ NZ HY EP) as (_ & _ & X). cbn [fst snd]. rewrite EY. destruct k as [k|]; cbn [e_task e_glob].
    - left. destruct X as (IN & Hk & EK & J). exists k. split; auto. split; auto. split; [destruct J as [(-> & _)|(_ & j & _ & _ & ->)]; auto|]. split; [unfold upd; now rewrite N.eqb_refl|].
      split; auto. intros j Hj. unfold upd. destruct (N.eqb_spec j k); congruence.
    - right. destruct X as (-> & X). split; auto. intros IN (_ & k & Hk & EK). now apply (X IN k Hk). }
  unfold api in E. destruct (precheck c) as [er|] eqn:PK.
  { cbn in E. injection E as <- <-. eapply SE; eauto. }
  destruct (PosixEnter pc tid (fst x)) as [[u|er] s1] eqn:EE; pose proof (enter_spec pc _ _ _ _ NZ HP EE) as EN.
  - destruct (brun (body pc tid c) s1) as [r2 s2] eqn:ER. destruct r2 as [o|e2]; cbn in E; injection E as <- <-; [reflexivity|].
    destruct EN as (IN & J & CX & _). pose proof (wp_brun pc _ (mono_body pc tid c) _ _ (body_wp pc PC tid c s1 CX FD)) as W. rewrite ER in W. cbn [fst snd] in W.
    eapply SE; [reflexivity| |reflexivity]. cbn [fst]. apply W. unfold set_errno in HO. cbn [fst] in HO. destruct (red_errnoptr pc tid s2) as [k3 s3] eqn:E3. cbn [fst] in HO.
    unfold red_errnoptr in E3. destruct (negb (p_init s2)); [congruence|]. destruct (TaskRegister pc tid s2) as [q s4] eqn:E4. pose proof (register_ok pc _ _ _ _ NZ E4). destruct q; congruence.
  - destruct EN as (-> & _). destruct c; cbn in E; injection E as <- <-; try (eapply SE; [reflexivity|exact HP|reflexivity]). reflexivity.
Qed.
(** No call changes the working directory of another task, except that a successful unmount or rollback of its volume
    moves it to the root of that volume; its own changes only by red_chdir (and in the same way). *)
Theorem C30_cwd x tid c r x' t n i : preach x -> p_init (fst x) = true -> pstep x (EvCall tid c r) x' -> t <> 0 -> cwd_is t (fst x) n i ->
  cwd_is t (fst x') n i \/
  t = tid /\ (exists p, c = PChdir p) /\ r = Ok RUnit \/
  cwd_is t (fst x') n ROOT /\ r = Ok RUnit /\ exists p, (c = PRollback p \/ exists f, c = PUmount p f) /\ volume_path pc p (Ok n).
Proof.
  intros R IN ST NZ (k & Hk & A & B & C).
  assert (JT : forall s1, fst x = s1 \/ joins pc tid (fst x) s1 -> p_t s1 k = p_t (fst x) k).
  { intros s1 [<-|[(-> & _)|(_ & j & Hj & EJ & ->)]]; auto. cbn. unfold upd. destruct (N.eqb_spec k j); congruence. }
  destruct (call_any pc PC _ _ _ _ _ R ST) as [(s1 & J & CX & E & _)|(J & _)].
  - specialize (JT s1 J). destruct (effect_t pc _ _ _ _ _ k E Hk) as [X|[(X1 & X2 & X3 & X4)|(p & m & X1 & X2 & X3 & X4 & X5)]].
    + left. exists k. rewrite X, JT. auto.
    + right. left. split; [congruence|auto].
    + right. right. rewrite JT in *. assert (m = n) as -> by congruence. split; [exists k; rewrite X5; auto|]. split; auto. exists p. auto.
  - left. exists k. rewrite (JT (fst x')); auto. destruct J; auto.
Qed.

(** * C35: red_getcwd *)
Lemma split_sepfree a : ~ In SEP a -> split SEP a = [a].
Proof using.
  induction a as [|c a IH]; auto. intros H. cbn. destruct (N.eqb_spec c SEP) as [X|X]; [destruct H; left; auto|]. rewrite IH; auto. intros Y. apply H. now right.
Qed.
Lemma split_join x l : Forall (pname pc) (x :: l) -> split SEP (join SEP (x :: l)) = x :: l.
Proof using.
  revert x. induction l as [|y l IH]; intros x FA; inversion FA as [|? ? PX FL]; subst.
  - cbn. apply split_sepfree. apply PX.
  - rewrite join_cons by discriminate. destruct (split_app pc x (join SEP (y :: l))) as (A & z & E1 & E2). rewrite (split_sepfree x) in E1 by apply PX. destruct A as [|w A]; [|destruct A; discriminate]. injection E1 as <-.
    rewrite E2, IH; auto.
Qed.
Lemma nozero_app a b : nozero a -> nozero b -> nozero (a ++ b).
Proof using. rewrite !nozero_In. intros A B X. apply in_app_iff in X as [X|X]; auto. Qed.
Lemma join_nz l : Forall (pname pc) l -> nozero (join SEP l).
Proof.
  induction 1 as [|x l PX FL IH]; [apply nozero_In; auto|]. destruct l as [|y l]; [apply PX|]. rewrite join_cons by discriminate. apply nozero_app; [apply PX|].
  apply nozero_In. apply nozero_In in IH. intros [X|X]; auto. now apply (ok_sep _ PC).
Qed.
Lemma comps_join l : Forall (pname pc) l -> comps (SEP :: join SEP l) = l.
Proof.
  intros FA. rewrite (comps_sep pc PC). unfold PosixSpec.comps. rewrite cstr_nz by (now apply join_nz). destruct l as [|x l]; [reflexivity|]. rewrite split_join by auto. revert FA. generalize (x :: l). clear x l.
  intros l FA. induction l as [|y l IH]; auto. inversion FA as [|? ? PX FL]; subst. cbn [filter]. destruct y as [|c y]; [destruct PX as (_ & _ & X & _); congruence|]. cbn [nonempty]. f_equal. now apply IH.
Qed.
Lemma path_nz n l : n < NV -> Forall (pname pc) l -> nozero (path_of pc n l).
Proof.
  intros Hn FA. unfold path_of. apply nozero_app; [apply (ok_pre _ PC n Hn)|]. pose proof (join_nz l FA) as J. apply nozero_In. apply nozero_In in J. intros [X|X]; auto. now apply (ok_sep _ PC).
Qed.
(** The path of a working directory begins with the prefix of its volume; if prefixes contain no separator, it
    is a path of that volume. *)
Lemma path_picks n l : nosep pc -> n < NV -> Forall (pname pc) l -> picks NV SEP prefix (path_of pc n l) n.
Proof.
  intros NS Hn FA. assert (W : forall m, m < NV -> (whole_prefix SEP (prefix m) (cstr (path_of pc n l)) <-> m = n)).
  { intros m Hm. rewrite (cstr_nz _ (path_nz n l Hn FA)). split.
    - intros X. apply (whole_upto pc) in X; [|now apply NS]. assert (whole_prefix SEP (prefix n) (path_of pc n l)) as Y by (right; eexists; reflexivity). apply (whole_upto pc) in Y; [|now apply NS].
      apply (ok_uniq _ PC); auto. congruence.
    - intros ->. right. eexists; reflexivity. }
  split; auto. destruct (prefix n) as [|c p] eqn:EP; [right|left].
  - split; auto. intros m Hm NE X. apply NE. apply W in X; auto. now subst.
  - split; [discriminate|]. split; [rewrite <- EP; apply W; auto|]. intros m Hm X. left. now apply W.
Qed.
(** There is a string [p] that [red_getcwd] returns for every buffer that can hold it with its terminator; for
    smaller buffers it fails with ERANGE.  It never stores outside the buffer (the model would fail with EFUBAR) and changes
    nothing.  Resolved as a path by any task, [p] leads to the working directory, provided its
    volume is mounted and no other volume has a prefix that matches [p] better. ([fuel] bounds the directory
    levels and entries visited.) *)
Theorem C35_getcwd x tid : preach x -> ready tid x -> exists n i p F, cwd_is tid (fst x) n i /\
  (forall size fuel r x', pstep x (EvCall tid (PGetcwd size fuel) r) x' -> size <> 0 -> (F <= fuel)%nat ->
     quiet (fst x) (fst x') /\ (lenN p + 1 <= size -> r = Ok (RStr p)) /\ (size < lenN p + 1 -> r = Err ERANGE)) /\
  (exists t, p = prefix n ++ SEP :: t) /\
  (nosep pc -> picks NV SEP prefix p n) /\
  (v_mnt (p_v (fst x) n) = true -> picks NV SEP prefix p n -> forall t, at_file t p (fst x) (Ok (n, i))).
Proof.
  intros R RD. pose proof (ready_Ctx pc PC _ _ R RD) as CX. destruct (do_getcwd pc PC tid (fst x) CX) as (n & i & l & F & A & Hn & FA & E & H). exists n, i, (path_of pc n l), F.
  split; auto. split; [|split; [|split]].
  - intros size fuel r x' ST SZ HF. inversion ST as [? ? ? ? ? NZ FD EA HO| | | | | |]; subst. unfold api in EA. cbn [precheck] in EA. rewrite (proj2 (N.eqb_neq size 0) SZ) in EA.
    destruct RD as (IN & RG). unfold PosixEnter in EA. rewrite IN in EA. unfold TaskRegister in EA. destruct (slot_spec pc tid (fst x) (x_inv _ _ _ CX) IN RG) as (k & SL & _). rewrite SL in EA. cbn [body] in EA.
    destruct (brun (red_getcwd pc tid size fuel) (fst x)) as [r2 s2] eqn:ER.
    assert (MO : PosixWp.mono (red_getcwd pc tid size fuel)) by apply (mono_body pc tid (PGetcwd size fuel)).
    pose proof (wp_brun pc _ MO _ _ (H size fuel)) as W. rewrite ER in W. cbn [fst snd] in W.
    assert (X : p_ok s2 = true /\ fst x' = s2 /\ r = r2).
    { destruct r2 as [o|e2]; cbn in EA; injection EA as <- <-; auto. unfold set_errno in *. cbn [fst snd] in *. destruct (red_errnoptr pc tid s2) as [k3 s3] eqn:E3. cbn [fst] in *.
      assert (p_ok s2 = true) as O2. { unfold red_errnoptr in E3. destruct (negb (p_init s2)); [congruence|]. destruct (TaskRegister pc tid s2) as [q s4] eqn:E4. pose proof (register_ok pc _ _ _ _ NZ E4). destruct q; congruence. }
      destruct (W O2) as (CX2 & _). destruct (errnoptr_reg pc tid s2 CX2) as (k4 & EK). rewrite EK in E3. injection E3 as _ <-. auto. }
    destruct X as (O2 & -> & ->). destruct (W O2) as (_ & S & RR). split; [now apply still_quiet|].
    destruct RR as [->|([X|X] & _)]; [|lia|lia]. destruct (N.leb_spec (lenN (path_of pc n l) + 1) size); split; intros; auto; lia.
  - eexists. reflexivity.
  - intros NS. now apply path_picks.
  - intros MN PK t. rewrite MN in E. exists (Ok (n, ROOT, l)). split; [|now rewrite E].
    assert (X : starts t (path_of pc n l) (fst x) (Ok (n, ROOT, comps (SEP :: join SEP l)))); [|rewrite (comps_join l FA) in X; exact X]. apply (St_abs pc t (path_of pc n l) (fst x) n (SEP :: join SEP l)); auto.
    + now rewrite (cstr_nz _ (path_nz n l Hn FA)).
    + destruct (prefix n) as [|c q] eqn:EP; [right|left; discriminate]. intros (c & u & E1 & NE). rewrite (cstr_nz _ (path_nz n l Hn FA)) in E1. unfold path_of in E1. rewrite EP in E1. cbn in E1. congruence.
Qed.
End PropPosix3.
