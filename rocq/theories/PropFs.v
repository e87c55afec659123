(** Power loss, rollback, transaction points, read-only volumes: C01, C02, C03, C10, C23, C34.

    Everything is said about volumes that can be reached from unformatted media by an arbitrary
    history of API calls, evictions of dirty buffers and power losses ([history], [reach]), in terms of
    the results that API calls return ([exec], [shows]). *)
From Verif Require Import Base Count FsState FsImap FsInode FsData FsTree FsImapProof FsInv FsStep FsBranch FsRead FsWrite FsVol FsVol2 FsVol3 FsVol4 FsWp FsDir FsDirP FsCore FsWr FsRo FsSpec FsSpecP FsCoreP FsCoreP2 FsCoreP3 FsCoreP4 FsCoreP5 FsMach FsVolume FsVolumeP FsReach FsKeep.
Ltac Zify.zify_post_hook ::= idtac.

Section Defs.
Variable g : cfg.
Variable atom : bool.
Variable MM TM TD : N.   (* RED_MOUNT_MASK, RED_TRANSACT_MASK, REDCONF_TRANSACT_DEFAULT *)
Notation exec := (exec g atom MM TM).
Notation step := (step g atom MM TM TD).
Notation steps := (steps g atom MM TM TD).

(** Media without a master block: what formatting starts from. *)
Definition unformatted (d : dev) : Prop := d_mst d = None /\ d_mstd d = None.
(** After power-on with unformatted media, the events [t] happened and the volume is now [v]. *)
Definition history (t : list event) (v : vol) : Prop := exists d, unformatted d /\ steps (boot TD d) t v.
Definition reach (v : vol) : Prop := exists t, history t v.

(** Every read of the mounted volume [v] (lookup, stat, read, readdir, parent) succeeds or fails as
    in the file system [F], and changes nothing. *)
Definition shows (v : vol) (F : fs) : Prop :=
  v_mnt v = true /\ forall c o1 o2, reads c = true -> legal c -> exists r t, exec c o1 o2 v = (r, v, t) /\ read_ok (NMAX g) c F r.
(** Mounting the media [d] after power-on succeeds and shows [F]. *)
Definition mounts (d : dev) (F : fs) : Prop :=
  forall flags o1 o2, N.land flags MM = flags ->
    exists v, exec (CMount flags) o1 o2 (boot TD d) = (Ok OUnit, v, []) /\ shows v F /\ s_ro (v_s v) = negb (N.land flags RED_MOUNT_READONLY =? 0).
(** The state [F] survives a power loss now: whatever dirty buffers have been written and whatever
    unflushed writes are lost or torn. *)
Definition durable (v : vol) (F : fs) : Prop := forall d d', mayhap (dirty v) (v_d v) d -> lose atom d d' -> mounts d' F.

(** statvfs reports [fst x] free blocks and [snd x] free inodes. *)
Definition vstat (v : vol) (x : N * N) : Prop :=
  forall o1 o2, exec CVolStat o1 o2 v = (Ok (OVStat (fst x, snd x, s_ro (v_s v))), v, []).
Definition durable_stat (v : vol) (x : N * N) : Prop :=
  forall d d' flags o1 o2 r v1 t, mayhap (dirty v) (v_d v) d -> lose atom d d' ->
    exec (CMount flags) o1 o2 (boot TD d') = (Ok r, v1, t) -> vstat v1 x.
End Defs.

(** A successful call that is a transaction point under the transaction mask. *)
Definition commit_call (mask : N) (c : call) : Prop :=
  c = CTransact \/ (exists f, c = CMount f) \/ modifies c = true /\ has mask (evbit c) = true.
Section P.
Variable g : cfg.
Hypothesis OK : cfg_ok g.
Variable atom : bool.
Variable MM TM TD : N.
Set Default Proof Using "All".
Notation exec := (exec g atom MM TM).
Notation step := (step g atom MM TM TD).
Notation steps := (steps g atom MM TM TD).
Notation astep := (astep (NMAX g) (INODE_SIZE_MAX g) (ICNT g) MM TM TD).
Notation asteps := (asteps (NMAX g) (INODE_SIZE_MAX g) (ICNT g) MM TM TD).
Notation reach := (reach g atom MM TM TD).
Notation shows := (shows g atom MM TM).
Notation mounts := (mounts g atom MM TM TD).
Notation durable := (durable g atom MM TM TD).
Notation Sim := (Sim g atom).

(** Every history is one of the specification machine of FsMach.v. *)
Theorem refines t v : history g atom MM TM TD t v -> exists a, asteps (Umt None TD) t a /\ Sim v a.
Proof.
  intros (d & U & S). destruct (steps_sim g OK atom MM TM TD _ _ _ S (Umt None TD)) as (a & A & B); [|eauto].
  split; auto.
Qed.
Lemma reach_sim v : reach v -> exists a, Sim v a.
Proof. intros (t & H). destruct (refines t v H) as (a & _ & B). eauto. Qed.
Lemma reach_mnt v : reach v -> v_mnt v = true -> exists W C, Sim v (Mnt W C (s_ro (v_s v)) (v_mask v)).
Proof.
  intros R M. destruct (reach_sim v R) as ([W C ro mask|X mask] & S); [|destruct S; congruence].
  exists W, C. destruct S as (A & B & D). rewrite B, D. split; auto.
Qed.
Lemma Sim_mnt v W C ro mask : Sim v (Mnt W C ro mask) -> v_mnt v = true.
Proof. intros ((? & ? & X) & _). apply X. Qed.
Lemma Sim_shows v W C ro mask : Sim v (Mnt W C ro mask) -> shows v W.
Proof.
  intros S. split; [eapply Sim_mnt; eauto|]. intros c o1 o2 RC LG. destruct (read_call g OK atom MM TM TD c o1 o2 v W C ro mask RC LG S) as (r & t & E & _ & R). eauto.
Qed.
Lemma CS_mounts d C : CS g atom d C -> mounts d C.
Proof.
  intros H flags o1 o2 HF. destruct (mount_ok g OK atom C (boot TD d) (negb (N.land flags RED_MOUNT_READONLY =? 0)) H) as (v & R & HV & RO & MK & _).
  exists v. split; [|split; auto].
  - cbn [FsVolume.exec]. unfold ounit, omap, RedCoreVolMount. rewrite HF, N.eqb_refl. cbn [negb]. unfold pbind at 1. rewrite R. reflexivity.
  - apply (Sim_shows v C C (negb (N.land flags RED_MOUNT_READONLY =? 0)) (v_mask v)). split; auto.
Qed.
Lemma Sim_durable v W C ro mask : Sim v (Mnt W C ro mask) -> durable v C.
Proof.
  intros S d d' MH LO. apply CS_mounts. eapply (CS_lose g OK); eauto. unfold dirty in MH. rewrite (Sim_mnt _ _ _ _ _ S) in MH.
  destruct S as (HV & _). eapply (back_CS g OK); eauto.
Qed.
Lemma Umt_durable v C mask : Sim v (Umt (Some C) mask) -> durable v C.
Proof.
  intros (MN & RS & HM & MK) d d' MH LO. apply CS_mounts. apply (CS_lose g OK atom d d' C); auto. unfold dirty in MH. rewrite MN in MH.
  apply (CS_mayhap g OK atom (v_d v) d C (fun _ => false)); auto. intros; discriminate.
Qed.
Lemma steps_app v t1 v1 t2 v2 : steps v t1 v1 -> steps v1 t2 v2 -> steps v (t1 ++ t2) v2.
Proof using. induction 1; cbn; intros; auto; [eapply Ss_cons|eapply Ss_back]; eauto. Qed.
Lemma reach_steps v t v' : reach v -> steps v t v' -> reach v'.
Proof using. intros (t0 & d & U & S) H. exists (t0 ++ t), d. split; auto. eapply steps_app; eauto. Qed.
Lemma reach_step v e v' : reach v -> step v (Some e) v' -> reach v'.
Proof using. intros R S. eapply reach_steps; eauto. eapply Ss_cons; eauto. apply Ss_nil. Qed.

(** The state right after a transaction point. *)
Lemma commit_sim v0 c r v1 : reach v0 -> step v0 (Some (ECall c (Ok r))) v1 -> commit_call (v_mask v0) c ->
  exists W, Sim v1 (Mnt W W (s_ro (v_s v1)) (v_mask v1)).
Proof.
  intros R S CC. destruct (reach_sim v0 R) as (a & SA). destruct (step_sim g OK atom MM TM TD _ _ _ _ SA S) as (a' & AS & SA').
  assert (EM : v_mask v0 = amask a). { destruct a as [? ? ? ?|? ?]; cbn in SA |- *; destruct SA as (? & ? & ?); [congruence|tauto]. }
  assert (G : exists W ro mask, a' = Mnt W W ro mask).
  { rewrite EM in CC. inversion AS; subst; cbn [amask] in CC; destruct CC as [E|[(f & E)|(E & E')]]; try (subst; discriminate); try (destruct H; subst; discriminate); try congruence; eauto.
    - rewrite E'. eauto.
    - destruct c; discriminate. }
  destruct G as (W & ro & mask & ->). exists W. destruct SA' as (A & B & D). rewrite B, D. split; auto.
Qed.

(** ... which has equal working and committed counters *)
Lemma transact_clean o v v' t W C : RedVolTransact o v = (Ok tt, v', t) -> VI g atom v' W C -> s_w (v_s v') = s_c (v_s v').
Proof.
  unfold RedVolTransact. destruct (s_br (v_s v)) eqn:B; cbn [negb].
  - destruct (UINT64_MAX <=? v_seq v + fst o); intros E; [discriminate|]. injection E as <- <-; auto.
  - intros E (C0 & D0 & X). injection E as <- <-. destruct (FSV_Idle g OK _ _ _ _ (x_w _ _ _ _ _ _ _ X)) as [pm K]. destruct (k_br K B) as (Y & _). exact Y.
Qed.
Lemma transact_mask o v r v' t : RedVolTransact o v = (r, v', t) -> v_mask v' = v_mask v.
Proof using. unfold RedVolTransact. destruct (negb (s_br (v_s v))); [congruence|]. destruct (UINT64_MAX <=? v_seq v + fst o); intros E; injection E as <- <- <-; auto. Qed.
Lemma core_mask {A} (m : M st A) v r v' t : core m v = (r, v', t) -> v_mask v' = v_mask v.
Proof using. unfold core. destruct (m (v_s v)). intros E; injection E as <- <- <-; auto. Qed.
Lemma autocommit_clean {A} ev (m : M st A) o1 o2 v a v' t W C : autocommit ev m o1 o2 v = (Ok a, v', t) -> has (v_mask v) ev = true -> VI g atom v' W C ->
  s_w (v_s v') = s_c (v_s v').
Proof.
  intros EX HE HV. unfold autocommit, guard in EX. destruct (v_mnt v); cbn [negb] in EX; [|discriminate]. destruct (s_ro (v_s v)); [discriminate|].
  unfold pbind at 1 in EX.
  assert (M1 : forall r v1 t1, pcatch (core m) (fun r v2 => match r with Ok a0 => pret a0 v2 | Err ENOSPC => if has (v_mask v2) T_VOLFULL && (0 <? s_afree (v_s v2)) then (RedVolTransact o1 ~;; core m)%pv v2 else pfail ENOSPC v2 | Err e => pfail e v2 end) v = (r, v1, t1) -> v_mask v1 = v_mask v).
  { intros r v1 t1. unfold pcatch. destruct (core m v) as [[r2 v2] t2] eqn:R2. pose proof (core_mask _ _ _ _ _ R2) as M2.
    destruct r2 as [x|[]]; try (intros E; injection E as <- <- <-; auto; fail).
    destruct (has (v_mask v2) T_VOLFULL && (0 <? s_afree (v_s v2))); [|intros E; injection E as <- <- <-; auto].
    unfold pbind. destruct (RedVolTransact o1 v2) as [[r3 v3] t3] eqn:R3. pose proof (transact_mask _ _ _ _ _ R3). destruct r3; [|intros E; injection E as <- <- <-; congruence].
    destruct (core m v3) as [[r4 v4] t4] eqn:R4. pose proof (core_mask _ _ _ _ _ R4). intros E; injection E as <- <- <-; congruence. }
  match goal with M1 : forall r v1 t1, ?P v = _ -> _ |- _ => destruct (P v) as [[r v1] t1] eqn:R1 end.
  specialize (M1 _ _ _ eq_refl).
  assert (EX' : match r with Ok a0 => let '(r2, v2, t2) := (if has (v_mask v1) ev then (RedVolTransact o2 ~;; pret a0)%pv v1 else pret a0 v1) in (r2, v2, t1 ++ t2) | Err e => (Err e, v1, t1) end = (Ok a, v', t)) by exact EX.
  destruct r as [x|]; [|discriminate]. rewrite M1, HE in EX'. unfold pbind in EX'. destruct (RedVolTransact o2 v1) as [[[[]|] v3] t3] eqn:R3; [|discriminate].
  injection EX' as <- <- <-. eapply transact_clean; eauto.
Qed.
Lemma commit_x v0 c r v1 : reach v0 -> step v0 (Some (ECall c (Ok r))) v1 -> commit_call (v_mask v0) c ->
  exists C0 D0 W, VIx g atom C0 D0 v1 W W /\ s_w (v_s v1) = C0.
Proof.
  intros R S CC. destruct (commit_sim v0 c r v1 R S CC) as (W & ((C0 & D0 & X) & _)). exists C0, D0, W. split; auto.
  rewrite <- (VIx_c g OK atom MM TM TD _ _ _ _ _ X). assert (HV : VI g atom v1 W W) by (exists C0, D0; auto). clear X.
  inversion S; subst. match goal with H : exec _ _ _ _ = _ |- _ => rename H into EX end. destruct CC as [->|[(f & ->)|(MC & HE)]]; cbn [FsVolume.exec] in EX.
  - unfold ounit, omap, RedCoreVolTransact, pbind, guard, pret in EX. destruct (negb (v_mnt v0)); [discriminate|]. destruct (s_ro (v_s v0)); [discriminate|].
    destruct (RedVolTransact o1 v0) as [[[[]|] v3] t3] eqn:R3; [|discriminate]. injection EX as <- <- <-. eapply transact_clean; eauto.
  - unfold ounit, omap, RedCoreVolMount, pbind, pret in EX. destruct (negb (N.land f MM =? f)); [discriminate|].
    unfold RedVolMountMaster in EX. destruct (d_mst (v_d v0)); [|discriminate]. unfold RedVolMountMetaroot in EX.
    destruct (choose atom (d_mr (v_d (vset_seq n v0)))) as [[[i q] m]|]; [|discriminate].
    destruct ((if v_seq (vset_seq n v0) <? q then q else v_seq (vset_seq n v0)) =? UINT64_MAX); [discriminate|]. injection EX as <- <- <-. reflexivity.
  - destruct (mod_form g OK atom MM TM TD c MC H1) as (A & m & f & bad & EQ & _). rewrite EQ in EX. unfold omap, pbind, pret in EX.
    destruct (autocommit (evbit c) m o1 o2 v0) as [[[a|] v3] t3] eqn:R3; [|discriminate]. injection EX as <- <- <-. eapply autocommit_clean; eauto.
Qed.

(** The counters reported by statvfs *)
Definition stat_of (m : mroot) : N * N := (if RESV g <? m_free m then m_free m - RESV g else 0, m_freei m).
Lemma vstat_of v : v_mnt v = true -> vstat g atom MM TM v (stat_of (s_w (v_s v))).
Proof using. intros MN o1 o2. cbn [FsVolume.exec]. unfold omap, pbind, RedCoreVolStat, pret. rewrite MN. reflexivity. Qed.
Lemma VIx_durable_stat C0 D0 v W C : VIx g atom C0 D0 v W C -> durable_stat g atom MM TM TD v (stat_of C0).
Proof.
  intros X d d' flags o1 o2 r v1 t MH LO EX.
  unfold dirty in MH. rewrite (x_mnt _ _ _ _ _ _ _ X) in MH. destruct MH as (H1 & H2 & H3 & H4 & H5).
  destruct (x_q _ _ _ _ _ _ _ X) as (q0 & (S1 & S2 & S3 & S4) & Q).
  assert (S : SLOTS atom d (negb (v_cur v)) q0 C0) by (unfold SLOTS; now rewrite !H2, !H3).
  pose proof (lose_slot atom _ _ _ _ _ S LO) as (Z1 & Z2 & Z3 & Z4).
  cbn [FsVolume.exec] in EX. unfold ounit, omap, RedCoreVolMount, pbind, pret in EX. destruct (negb (N.land flags MM =? flags)); [discriminate|].
  unfold RedVolMountMaster in EX. destruct (d_mst (v_d (boot TD d'))); [|discriminate]. unfold RedVolMountMetaroot in EX.
  change (v_d (vset_seq n (boot TD d'))) with d' in EX. rewrite (choose_older _ _ _ _ _ Z1 Z3) in EX.
  destruct ((if v_seq (vset_seq n (boot TD d')) <? q0 then q0 else v_seq (vset_seq n (boot TD d'))) =? UINT64_MAX); [discriminate|]. injection EX as <- <- <-.
  match goal with |- vstat _ _ _ _ ?V _ => exact (vstat_of V eq_refl) end.
Qed.

Lemma no_commit_durable C0 D0 v1 t v2 W C : VIx g atom C0 D0 v1 W C -> no_commit g atom MM TM TD v1 t v2 -> durable v2 C /\ durable_stat g atom MM TM TD v2 (stat_of C0).
Proof.
  intros X NC. destruct (no_commit_x g OK atom MM TM TD _ _ _ NC C0 D0 W C X) as ((D1 & W' & X' & _) & _).
  split; [|eapply VIx_durable_stat; eauto]. apply (Sim_durable v2 W' C (s_ro (v_s v2)) (v_mask v2)). split; auto. exists C0, D1. auto.
Qed.

(** * C01 *)
(** After a transaction point (explicit, automatic, or the mount) and any further calls during which no
    metaroot is written, a power loss brings back exactly the state at the transaction point. *)
Theorem C01_power_loss v0 c r v1 : reach v0 -> step v0 (Some (ECall c (Ok r))) v1 -> commit_call (v_mask v0) c ->
  exists F x, shows v1 F /\ vstat g atom MM TM v1 x /\
    forall t v2, no_commit g atom MM TM TD v1 t v2 -> durable v2 F /\ durable_stat g atom MM TM TD v2 x.
Proof.
  intros R S CC. destruct (commit_x v0 c r v1 R S CC) as (C0 & D0 & W & X & EW). exists W, (stat_of C0).
  split; [eapply (Sim_shows v1 W W); split; [exists C0, D0; exact X|auto]|]. split; [rewrite <- EW; apply vstat_of; apply X|].
  intros t v2 NC. eapply no_commit_durable; eauto.
Qed.

(** Power loss during a call: the state last committed before the call, or what the call commits,
    or, if the call ran out of space and was retried after a transaction, the working state before it. *)
Theorem C01_power_loss_during_call v c o1 o2 r v' t : reach v -> v_mnt v = true -> legal c -> allowed v c -> room v o1 o2 ->
  exec c o1 o2 v = (r, v', t) ->
  exists W C, shows v W /\ durable v C /\
    forall sn d d', In sn t -> sn d -> lose atom d d' ->
      mounts d' C \/
      (exists C', durable v' C' /\ mounts d' C') \/
      modifies c = true /\ has (v_mask v) T_VOLFULL = true /\ mounts d' W.
Proof.
  intros R MN LG AL RM EX. destruct (reach_mnt v R MN) as (W & C & SA). exists W, C.
  split; [eapply Sim_shows; eauto|]. split; [eapply Sim_durable; eauto|]. intros sn d d' IN HD LO.
  destruct (mounted_run g OK atom MM TM TD c o1 o2 v W C _ _ LG AL RM SA) as (r0 & v0 & t0 & EX' & X). rewrite EX in EX'. injection EX' as <- <- <-.
  destruct X as (a' & AS & SA' & HT).
  unfold FsFormat.TRo in HT. rewrite Forall_forall in HT. destruct (HT sn IN d HD d' LO) as (X & (_ & CT) & HM).
  unfold crash_to in CT. cbn [acom awork amask] in CT. destruct CT as [->|[->|[(E1 & E2 & ->)|(-> & ->)]]].
  - left. apply CS_mounts; auto.
  - right. left. destruct a' as [W' C' ro' mask'|[C'|] mask']; cbn [acom MS] in HM.
    + exists C'. split; [eapply Sim_durable; eauto|apply CS_mounts; auto].
    + exists C'. split; [eapply Umt_durable; eauto|apply CS_mounts; auto].
    + inversion AS.
  - right. right. split; auto. split; auto. apply CS_mounts; auto.
  - exfalso. cbn [FsVolume.exec] in EX. unfold ounit, omap, pbind, RedVolFormat, RedVolFormatWith in EX. rewrite MN in EX. injection EX as <- <- <-. destruct IN.
Qed.

(** * C02 *)
(** From any reachable state on, as long as no metaroot is written: no block of the committed state is
    dirty or modified, in memory or on the media, and the current metaroot block stays; the same holds at
    every instant of the next call, including the one that writes the next transaction point. *)
Theorem C02_committed_blocks v1 t v2 : reach v1 -> v_mnt v1 = true -> no_commit g atom MM TM TD v1 t v2 ->
  s_c (v_s v2) = s_c (v_s v1) /\ kept v1 (v_d v2) /\
  (forall b, m_bits (s_c (v_s v1)) b = true -> s_wr (v_s v2) b = false /\ dk (v_s v2) b = d_blk (v_d v1) b) /\
  (forall c o1 o2 r v3 tr sn d, legal c -> allowed v2 c -> room v2 o1 o2 -> exec c o1 o2 v2 = (r, v3, tr) ->
     (modifies c = true -> has (v_mask v2) T_VOLFULL = false) -> In sn tr -> sn d -> kept v1 d).
Proof.
  intros R MN NC. destruct (reach_mnt v1 R MN) as (W & C & ((C0 & D0 & X) & _)).
  destruct (no_commit_x g OK atom MM TM TD _ _ _ NC C0 D0 W C X) as ((D1 & W' & X' & HD) & CU & RO & KP).
  assert (EC : s_c (v_s v2) = s_c (v_s v1)) by (rewrite (VIx_c g OK atom MM TM TD _ _ _ _ _ X), (VIx_c g OK atom MM TM TD _ _ _ _ _ X'); auto).
  split; auto. split; auto. split.
  - intros b Hb. assert (WR : s_wr (v_s v2) b = false).
    { destruct (s_wr (v_s v2) b) eqn:E; auto. rewrite (VIx_c g OK atom MM TM TD _ _ _ _ _ X) in Hb. rewrite (VIx_wr g OK atom _ _ _ _ _ X' b E) in Hb. discriminate. }
    split; auto. rewrite (x_un _ _ _ _ _ _ _ X' b WR). apply KP; auto.
  - intros c o1 o2 r v3 tr sn d LG AL RM EX VF IN HS. apply (kept_trans v1 v2); auto. pose proof (x_mnt _ _ _ _ _ _ _ X') as MN2.
    destruct (modifies c) eqn:MC.
    { destruct (mod_form g OK atom MM TM TD c MC LG) as (A & m & f & bad & EQ & HO & HB). rewrite EQ in EX. unfold omap in EX. unfold pbind in EX at 1.
      destruct (autocommit (evbit c) m o1 o2 v2) as [[r0 v0] t0] eqn:R0.
      assert (TE : tr = t0 /\ v3 = v0). { unfold pret in EX. destruct r0; injection EX as <- <- <-; rewrite ?app_nil_r; auto. } destruct TE as [-> ->].
      destruct (s_ro (v_s v2)) eqn:RO2.
      - unfold autocommit, guard in R0. rewrite MN2, RO2 in R0. injection R0 as <- <- <-. destruct IN.
      - eapply (autocommit_kept g OK atom MM TM TD bad m _ _ (evbit c) o1 o2 C0 D1 v2 W' C); eauto. tauto. }
    destruct (reads c) eqn:RC.
    { pose proof (read_t g atom MM TM _ _ _ _ _ _ _ RC MN2 EX) as ->. destruct IN as [<-|[]].
      assert (SM : Sim v2 (Mnt W' C (s_ro (v_s v2)) (v_mask v2))) by (split; [exists C0, D1; auto|auto]).
      destruct (read_call g OK atom MM TM TD c o1 o2 v2 W' C _ _ RC LG SM) as (r0 & t0 & R0 & _). rewrite EX in R0. injection R0 as <- -> <-.
      eapply (VIx_kept g OK atom MM TM TD); eauto. }
    destruct c; try discriminate; cbn [FsVolume.exec] in EX.
    + unfold ounit, omap, RedCoreVolTransact, pbind, guard, pret in EX. rewrite MN2 in EX. cbn [negb] in EX. destruct (s_ro (v_s v2)); [injection EX as <- <- <-; destruct IN|].
      destruct (RedVolTransact o1 v2) as [[[[]|] v4] t4] eqn:R4; injection EX as <- <- <-; rewrite ?app_nil_r in IN; eapply (transact_kept g OK atom MM TM TD); eauto.
    + unfold ounit, omap, RedCoreVolRollback, pbind, guard, pret in EX. rewrite MN2 in EX. cbn [negb] in EX. destruct (s_ro (v_s v2)) eqn:RO2; [injection EX as <- <- <-; destruct IN|].
      destruct (rollback_x g OK atom MM TM TD C0 D1 v2 W' C X' RO2) as (v0 & R0 & _). rewrite R0 in EX. injection EX as <- <- <-. destruct IN.
    + unfold ounit, omap, RedCoreTransMaskSet, pbind, pret in EX. destruct (negb (v_mnt v2) || negb (N.land m TM =? m)); [injection EX as <- <- <-; destruct IN|].
      destruct (s_ro (v_s v2)); injection EX as <- <- <-; destruct IN.
    + unfold omap, RedCoreTransMaskGet, pbind, pret in EX. rewrite MN2 in EX. injection EX as <- <- <-; destruct IN.
    + unfold omap, RedCoreVolStat, pbind, pret in EX. rewrite MN2 in EX. injection EX as <- <- <-; destruct IN.
    + cbn in AL. congruence.
    + unfold ounit, omap, RedCoreVolUnmount, pbind, pmod, pret in EX. destruct (negb (s_ro (v_s v2)) && has (v_mask v2) T_UMOUNT); [|injection EX as <- <- <-; destruct IN].
      destruct (RedVolTransact o1 v2) as [[[[]|] v4] t4] eqn:R4; injection EX as <- <- <-; rewrite ?app_nil_r in IN; eapply (transact_kept g OK atom MM TM TD); eauto.
    + unfold ounit, omap, pbind, RedVolFormat, RedVolFormatWith in EX. rewrite MN2 in EX. injection EX as <- <- <-; destruct IN.
Qed.

(** * C03 *)
(** Rollback after any calls during which no metaroot was written restores files, directories and
    counters of the last transaction point, and writes nothing. *)
Theorem C03_rollback v0 c r v1 : reach v0 -> step v0 (Some (ECall c (Ok r))) v1 -> commit_call (v_mask v0) c -> s_ro (v_s v1) = false ->
  exists F x, shows v1 F /\ vstat g atom MM TM v1 x /\
    forall t v2 o1 o2, no_commit g atom MM TM TD v1 t v2 ->
      exists v3, exec CRollback o1 o2 v2 = (Ok OUnit, v3, []) /\ shows v3 F /\ vstat g atom MM TM v3 x /\ v_d v3 = v_d v2.
Proof.
  intros R S CC RO. destruct (commit_x v0 c r v1 R S CC) as (C0 & D0 & W & X & EW). exists W, (stat_of C0).
  split; [eapply (Sim_shows v1 W W); split; [exists C0, D0; exact X|auto]|]. split; [rewrite <- EW; apply vstat_of; apply X|].
  intros t v2 o1 o2 NC. destruct (no_commit_x g OK atom MM TM TD _ _ _ NC C0 D0 W W X) as ((D1 & W' & X' & _) & _ & RO2 & _). rewrite RO in RO2.
  destruct (rollback_x g OK atom MM TM TD C0 D1 v2 W' W X' RO2) as (v3 & RB & X3 & RO3 & DV & _ & E3). exists v3.
  split; [|split; [eapply (Sim_shows v3 W W false (v_mask v3)); split; [eexists; eexists; eauto|auto]|split; [rewrite <- E3; apply vstat_of; apply X3|auto]]].
  cbn [FsVolume.exec]. unfold ounit, omap, RedCoreVolRollback, pbind at 1, guard. rewrite (x_mnt _ _ _ _ _ _ _ X'), RO2. cbn [negb]. rewrite RB. reflexivity.
Qed.
End P.
