(** C45: a device failure is no worse than a power loss.

    Histories ([fhistory]) may contain calls during which any read, write or flush of the device fails ([execF]); they
    include all histories without failures.  In terms of [shows], [mounts] and [durable] of PropFs.v. *)
From Verif Require Import Base Count FsState FsImap FsInode FsData FsTree FsImapProof FsInv FsStep FsBranch FsRead FsWrite FsVol FsVol2 FsVol3 FsVol4 FsWp FsDir FsDirP FsCore FsWr FsRo FsSpec FsSpecP FsCoreP FsCoreP2 FsCoreP3 FsCoreP4 FsCoreP5 FsMach FsVolume FsVolumeP FsReach FsKeep PropFs.
From Verif Require Import FltMonad FltImap FltInode FltData FltDir FltCore FltP FltCoreP FltVolume FltVolumeP FltSpec FltReach.
Ltac Zify.zify_post_hook ::= idtac.
Close Scope flt_scope.

Section Defs.
Variable g : cfg.
Variable atom : bool.
Variable MM TM TD : N.   (* RED_MOUNT_MASK, RED_TRANSACT_MASK, REDCONF_TRANSACT_DEFAULT *)
(** After power-on with unformatted media the events [t] happened, some of them calls that met device failures. *)
Definition fhistory (t : list event) (v : vol) : Prop := exists d, unformatted d /\ fsteps g atom MM TM TD (boot TD d) t v.
Definition freach (v : vol) : Prop := exists t, fhistory t v.

(** The states that a power loss during the call [c] may leave, where W is the state the volume shows before the call
    and C the state last committed: C, or a state committed by a transaction point that is part of the call. *)
Definition leaves (W C : fs) (mask : N) (c : call) (X : fs) : Prop :=
  X = C \/
  c = CTransact /\ X = W \/
  c = CUnmount /\ has mask T_UMOUNT = true /\ X = W \/
  modifies c = true /\ has mask T_VOLFULL = true /\ X = W \/
  modifies c = true /\ has mask (evbit c) = true /\ exists r, op_ok (NMAX g) (INODE_SIZE_MAX g) (ICNT g) c r W X.
(** Losing power now leaves one of the states of P. *)
Definition survives (v : vol) (P : fs -> Prop) : Prop :=
  forall d d', mayhap (dirty v) (v_d v) d -> lose atom d d' -> exists X, P X /\ mounts g atom MM TM TD d' X.

(** The media [d] after power-on: a file system that can be mounted, or none, and mounting fails with EIO. *)
Definition holds (d : dev) (X : option fs) : Prop :=
  match X with
  | Some F => mounts g atom MM TM TD d F
  | None => forall flags o1 o2, N.land flags MM = flags -> exists v t, exec g atom MM TM (CMount flags) o1 o2 (boot TD d) = (Err EIO, v, t) /\ v_mnt v = false
  end.
(** Losing power now can leave the state X; leaves one of the states of P. *)
Definition left_ (v : vol) (X : option fs) : Prop := exists d d', mayhap (dirty v) (v_d v) d /\ lose atom d d' /\ holds d' X.
Definition leaves_one (v : vol) (P : option fs -> Prop) : Prop :=
  forall d d', mayhap (dirty v) (v_d v) d -> lose atom d d' -> exists X, P X /\ holds d' X.
(** One of the states of P, none, or an empty file system. *)
Definition or_fresh (P : option fs -> Prop) (Y : option fs) : Prop := P Y \/ Y = None \/ Y = Some Fempty.
End Defs.

(** The error of a call that met a device failure: EIO; a create that runs into another error first and meets the
    failure while it undoes its changes reports the other error. *)
Definition failed (c : call) (r : res out) : Prop := exists e, r = Err e /\ (e = EIO \/ exists p nm d, c = CCreate p nm d).
(** Results on a volume that is mounted read-only. *)
Definition refused (e : event) : Prop :=
  match e with ECall c r => (modifies c = true \/ c = CTransact \/ c = CRollback -> r = Err EROFS) /\ (c = CVolStat -> exists nb ni, r = Ok (OVStat (nb, ni, true))) | _ => True end.
Definition stays (e : event) : Prop := match e with ECall c _ => c <> CUnmount | ECrash _ => False end.

Section P.
Variable g : cfg.
Hypothesis OK : cfg_ok g.
Variable atom : bool.
Variable MM TM TD : N.
Set Default Proof Using "All".
Notation exec := (exec g atom MM TM).
Notation execF := (execF g atom MM TM).
Notation fstep := (fstep g atom MM TM TD).
Notation fsteps := (fsteps g atom MM TM TD).
Notation fasteps := (fasteps (NMAX g) (INODE_SIZE_MAX g) (ICNT g) MM TM TD).
Notation power_loss := (power_loss (NMAX g) (INODE_SIZE_MAX g) (ICNT g) MM TM TD).
Notation freach := (freach g atom MM TM TD).
Notation shows := (shows g atom MM TM).
Notation mounts := (mounts g atom MM TM TD).
Notation durable := (durable g atom MM TM TD).
Notation survives := (survives g atom MM TM TD).
Notation leaves := (leaves g).
Notation stable := (stable atom).
Notation Sim := (Sim g atom).
Notation FSim := (FSim g atom).
Notation DN := (DN WF g atom).
Notation holds := (holds g atom MM TM TD).
Notation left_ := (left_ g atom MM TM TD).
Notation leaves_one := (leaves_one g atom MM TM TD).

(** The histories without failures are among those considered here. *)
Theorem C45_includes t v : history g atom MM TM TD t v -> fhistory g atom MM TM TD t v.
Proof. intros (d & U & S). exists d. split; auto. eapply steps_fsteps; eauto. instantiate (1 := Umt None TD). split; auto. Qed.
(** Every history with failures is one of the specification machine of FltSpec.v. *)
Theorem C45_refines t v : fhistory g atom MM TM TD t v -> exists x, fasteps (Up (Umt None TD)) t x /\ FSim v x.
Proof. intros (d & U & S). apply (fsteps_sim g OK atom MM TM TD _ _ _ S (Up (Umt None TD))). split; auto. Qed.
Lemma freach_up v : freach v -> v_mnt v = true -> s_ro (v_s v) = false -> exists W C, Sim v (Mnt W C false (v_mask v)).
Proof.
  intros (t & H) MN RO. destruct (C45_refines t v H) as ([[W C ro mask|X mask]|P mask|P mask] & _ & S); cbn in S.
  - exists W, C. destruct S as (A & B & D). split; [exact A|]. auto.
  - destruct S. congruence.
  - destruct S as (_ & B & _). congruence.
  - destruct S. congruence.
Qed.
Lemma power_loss_leaves W C mask c X : power_loss (Mnt W C false mask) c X -> leaves W C mask c X.
Proof using.
  clear. unfold FltSpec.power_loss, PropFlt.leaves. intros H. inversion H; subst.
  match goal with Q : X = C \/ _ |- _ => destruct Q as [Q|(_ & [(M & [[Q|(V & Q)]|Q])|[(Q1 & Q2)|(Q1 & Q2 & Q3)]])] end; auto 10.
Qed.
Lemma DN_survives (P Q : fs -> Prop) mask v : (forall X, P X -> Q X) -> DN P mask v -> survives v Q.
Proof.
  intros PQ (MN & RO & RS & MK & D) d d' MH LO. unfold dirty in MH. rewrite MN in MH. destruct (D d MH) as (CR0 & _). destruct (CR0 d' LO) as (X & PX & CX).
  exists X. split; auto. apply (CS_mounts g OK); auto.
Qed.
Lemma TR_mounts (P Q : fs -> Prop) t : (forall X, P X -> Q X) -> TR g atom P t -> forall sn d d', In sn t -> sn d -> lose atom d d' -> exists X, Q X /\ mounts d' X.
Proof.
  intros PQ T sn d d' IN HD LO. unfold FsVolumeG.TR in T. rewrite Forall_forall in T. destruct (T sn IN d HD d' LO) as (X & PX & CX).
  exists X. split; auto. apply (CS_mounts g OK); auto.
Qed.

(** A call on a writable volume either does what it does without failures, or fails; then the volume is still mounted
    but read-only.  If the call was one that only reads, the volume still shows the same state.  Otherwise a power
    loss then, and at every instant of the failing call, leaves a state that a power loss during the call could have
    left without a device failure. *)
Theorem C45_failed_call v c o1 o2 r v' t : freach v -> v_mnt v = true -> s_ro (v_s v) = false -> legal c -> allowed v c -> room v o1 o2 ->
  execF c o1 o2 v r v' t ->
  exists W C, shows v W /\ durable v C /\
    (exec c o1 o2 v = (r, v', t) \/
     failed c r /\ v_mnt v' = true /\ s_ro (v_s v') = true /\
     (reads c = true -> shows v' W /\ durable v' C) /\
     (reads c = false -> survives v' (leaves W C (v_mask v) c)) /\
     forall sn d d', In sn t -> sn d -> lose atom d d' -> exists X, leaves W C (v_mask v) c X /\ mounts d' X).
Proof.
  intros R MN RO LG AL RM EX. destruct (freach_up v R MN RO) as (W & C & S). exists W, C.
  split; [eapply Sim_shows; eauto|]. split; [eapply Sim_durable; eauto|].
  destruct (up_mounted g OK atom MM TM TD c o1 o2 v W C false (v_mask v) r v' t LG AL RM S EX) as [E|(x & FT & FS & T)]; auto. right.
  pose proof (TR_mounts _ _ t (power_loss_leaves W C (v_mask v) c) T) as TM'.
  destruct FT as [(_ & HC & (e & -> & HE) & ->)|(RC & -> & ->)].
  - split; [exists e; split; auto|]. split; [apply FS|]. split; [apply FS|]. split; [|split; auto].
    + intros RC. exfalso. destruct HC as [HC|[->|[->| ->]]]; try discriminate. destruct c; discriminate.
    + intros _. eapply DN_survives; [apply power_loss_leaves|exact FS].
  - split; [exists EIO; auto|]. split; [eapply Sim_mnt; eauto|]. split; [apply FS|]. split; [|split; auto].
    + intros _. split; [eapply Sim_shows; eauto|eapply Sim_durable; eauto].
    + congruence.
Qed.

(** After such a failure, as long as the volume is not unmounted and power is not lost, and whatever else fails: calls that
    modify the file system, transactions and rollbacks fail with EROFS, statvfs reports a read-only volume, and a power
    loss at any time leaves one of the same states. *)
Lemma Down_run P mask v t v2 : DN P mask v -> fsteps v t v2 -> Forall stays t -> DN P mask v2 /\ Forall refused t.
Proof.
  intros D H. revert D. induction H as [v|v e v1 t v2 S1 _ IH|v v1 t v2 S1 _ IH]; intros D ST.
  - auto.
  - inversion ST; subst. destruct (fstep_sim g OK atom MM TM TD v (Some e) v1 (Down P mask) D S1) as (x & FS & SX).
    assert (Z : x = Down P mask /\ refused e).
    { inversion FS; subst; cbn in *; try congruence; try tauto; (split; [reflexivity|]); cbn [refused]; (split; [try reflexivity; try (intros [Q|[Q|Q]]; discriminate Q)|try (intros Q; subst; discriminate); eauto]).
      - intros ->. match goal with Q : _ \/ _ |- _ => destruct Q as [Q|[Q|Q]]; discriminate Q end.
      - intros [Q|[->| ->]]; [destruct c|..]; discriminate. }
    destruct Z as (-> & RF). destruct (IH SX) as (A & B); auto.
  - apply IH; auto. exact (fstep_sim g OK atom MM TM TD v None v1 (Down P mask) D S1).
Qed.
Lemma fail_Down v c o1 o2 r v' t : freach v -> v_mnt v = true -> s_ro (v_s v) = false -> legal c -> allowed v c -> room v o1 o2 ->
  execF c o1 o2 v r v' t -> exec c o1 o2 v <> (r, v', t) -> reads c = false ->
  exists W C, shows v W /\ durable v C /\ DN (leaves W C (v_mask v) c) (v_mask v) v'.
Proof.
  intros R MN RO LG AL RM EX NE RC. destruct (freach_up v R MN RO) as (W & C & S). exists W, C.
  split; [eapply Sim_shows; eauto|]. split; [eapply Sim_durable; eauto|].
  destruct (up_mounted g OK atom MM TM TD c o1 o2 v W C false (v_mask v) r v' t LG AL RM S EX) as [E|(x & FT & FS & T)]; [contradiction|].
  destruct FT as [(_ & HC & (e & -> & HE) & ->)|(RC' & -> & ->)]; [|congruence].
  eapply DN_imp; [apply power_loss_leaves|exact FS].
Qed.
Theorem C45_stays_readonly v c o1 o2 r v' t : freach v -> v_mnt v = true -> s_ro (v_s v) = false -> legal c -> allowed v c -> room v o1 o2 ->
  execF c o1 o2 v r v' t -> exec c o1 o2 v <> (r, v', t) -> reads c = false ->
  exists W C, shows v W /\ durable v C /\
    forall t2 v2, fsteps v' t2 v2 -> Forall stays t2 ->
      v_mnt v2 = true /\ s_ro (v_s v2) = true /\ Forall refused t2 /\ survives v2 (leaves W C (v_mask v) c).
Proof.
  intros R MN RO LG AL RM EX NE RC. destruct (fail_Down v c o1 o2 r v' t R MN RO LG AL RM EX NE RC) as (W & C & SW & DC & D).
  exists W, C. split; auto. split; auto. intros t2 v2 H ST. destruct (Down_run _ _ _ _ _ D H ST) as (D2 & RF).
  split; [apply D2|]. split; [apply D2|]. split; auto. eapply DN_survives; [|exact D2]. auto.
Qed.

(** Unmounting the volume then succeeds.  If the device answers reads of the master block and of the metaroots with what is
    on the media for good ([stable]), mounting it again either fails with EIO, and may be tried again, or succeeds; the volume is then as
    writable as after any mount, and shows and keeps one of the states a power loss during the failed call could
    have left. *)
Inductive mount_failures : vol -> vol -> Prop :=
| MF_nil v : mount_failures v v
| MF_cons v flags v1 v2 : N.land flags MM = flags -> fstep v (Some (ECall (CMount flags) (Err EIO))) v1 -> mount_failures v1 v2 -> mount_failures v v2.
Theorem C45_remount v c o1 o2 r v' t : freach v -> v_mnt v = true -> s_ro (v_s v) = false -> legal c -> allowed v c -> room v o1 o2 ->
  execF c o1 o2 v r v' t -> exec c o1 o2 v <> (r, v', t) -> reads c = false ->
  exists W C, shows v W /\ durable v C /\
    forall t2 v2 r3 v3, fsteps v' t2 v2 -> Forall stays t2 -> fstep v2 (Some (ECall CUnmount r3)) v3 ->
      r3 = Ok OUnit /\ v_mnt v3 = false /\ survives v3 (leaves W C (v_mask v) c) /\
      forall v4 flags r5 v5, mount_failures v3 v4 -> N.land flags MM = flags -> fstep v4 (Some (ECall (CMount flags) r5)) v5 ->
        r5 = Err EIO /\ v_mnt v5 = false /\ survives v5 (leaves W C (v_mask v) c) \/
        r5 = Ok OUnit /\ s_ro (v_s v5) = negb (N.land flags RED_MOUNT_READONLY =? 0) /\
        exists X, leaves W C (v_mask v) c X /\ shows v5 X /\ durable v5 X.
Proof.
  intros R MN RO LG AL RM EX NE RC. destruct (fail_Down v c o1 o2 r v' t R MN RO LG AL RM EX NE RC) as (W & C & SW & DC & D).
  exists W, C. split; auto. split; auto. intros t2 v2 r3 v3 H ST S3. destruct (Down_run _ _ _ _ _ D H ST) as (D2 & _).
  set (P := leaves W C (v_mask v) c) in *.
  set (PO := fun Y : option fs => exists X, P X /\ Y = Some X).
  assert (OFF : forall u mk, FSim u (Off PO mk) -> survives u P).
  { intros u mk (A1 & A2 & A3 & A4) d d' MH LO. unfold dirty in MH. rewrite A1 in MH. destruct A4 as (CR0 & _).
    destruct (CR0 d' (mayhap_none_lose atom _ _ _ MH LO)) as (Y & (X & PX & ->) & CX).
    exists X. split; auto. apply (CS_mounts g OK); auto. }
  destruct (fstep_sim g OK atom MM TM TD v2 _ v3 (Down P (v_mask v)) D2 S3) as (x & FS & SX).
  assert (Z : x = Off PO (v_mask v) /\ r3 = Ok OUnit).
  { inversion FS; subst; auto; try discriminate; exfalso; match goal with Q : _ \/ _ |- _ => destruct Q as [Q|[Q|Q]]; discriminate Q end. }
  destruct Z as (-> & ->). split; auto. split; [apply SX|]. split; [eapply OFF; eauto|].
  intros v4 flags r5 v5 MF FL S5.
  assert (S4 : FSim v4 (Off PO (v_mask v))).
  { clear S5 S3 H. clearbody PO. clear -MF SX OK. revert SX. induction MF as [v0|v0 fl v1 v2 HF S1 MF IH]; intros SX; auto. apply IH.
    destruct (fstep_sim g OK atom MM TM TD v0 _ v1 _ SX S1) as (x & FS & SX1). inversion FS; subst; auto; try congruence. }
  destruct (fstep_sim g OK atom MM TM TD v4 _ v5 _ S4 S5) as (x & FS5 & SX5).
  inversion FS5; subst; try congruence.
  - exfalso. match goal with Q : _ \/ _ |- _ => destruct Q as [Q|[Q|[Q|[Q|[(? & Q)|[Q|Q]]]]]]; discriminate Q end.
  - right. split; auto. split; [apply SX5|]. match goal with Q : PO (Some ?Y) |- _ => exists Y; destruct Q as (X0 & PX0 & EX0) end. injection EX0 as ->.
    split; [eassumption|]. split; [exact (Sim_shows g OK atom MM TM TD _ _ _ _ _ SX5)|exact (Sim_durable g OK atom MM TM TD _ _ _ _ _ SX5)].
  - left. split; auto. split; [apply SX5|]. eapply OFF; eauto.
Qed.

(** A failing call that only reads: the volume goes on showing the same state, and nothing that was committed is lost.
    Everything that was not committed is lost at the next unmount, since the volume is read-only. *)
Theorem C45_failed_read v c o1 o2 v' t : freach v -> v_mnt v = true -> s_ro (v_s v) = false -> legal c -> allowed v c -> room v o1 o2 ->
  reads c = true -> execF c o1 o2 v (Err EIO) v' t ->
  exists W C, shows v W /\ durable v C /\ shows v' W /\ durable v' C /\ s_ro (v_s v') = true /\
    forall o3 o4, exists v3 t3, exec CUnmount o3 o4 v' = (Ok OUnit, v3, t3) /\ durable v3 C.
Proof.
  intros R MN RO LG AL RM RC EX. destruct (freach_up v R MN RO) as (W & C & S). exists W, C.
  split; [eapply Sim_shows; eauto|]. split; [eapply Sim_durable; eauto|].
  destruct (up_mounted g OK atom MM TM TD c o1 o2 v W C false (v_mask v) (Err EIO) v' t LG AL RM S EX) as [E|(x & FT & FS & T)].
  - exfalso. destruct (read_call g OK atom MM TM TD c o1 o2 v W C false _ RC LG S) as (r0 & t0 & E' & _ & RR). rewrite E in E'. injection E' as <- _ _.
    destruct c; try discriminate RC; cbn in RR; unfold no_entry, not_file, bad_dir, bad_name in RR; intuition congruence.
  - destruct FT as [(_ & HC & _)|(_ & _ & ->)].
    { exfalso. destruct HC as [HC|[->|[->| ->]]]; try discriminate. destruct c; discriminate. }
    cbn in FS. split; [eapply Sim_shows; eauto|]. split; [eapply Sim_durable; eauto|]. split; [apply FS|]. intros o3 o4.
    assert (RO' : s_ro (v_s v') = true) by apply FS.
    exists (vset_mnt false v'), []. split.
    + cbn [FsVolume.exec]. unfold ounit, omap, pbind, FsVolume.RedCoreVolUnmount, pbind. rewrite RO'. reflexivity.
    + intros d d' MH LO. eapply (Sim_durable g OK atom MM TM TD v' W C true _ FS); eauto. unfold dirty in *. cbn in MH. rewrite (Sim_mnt g OK atom MM TM TD _ _ _ _ _ FS).
      eapply mayhap_sub; [|exact MH]. discriminate.
Qed.

(** ** Formatting *)
Lemma MS_holds d X : MS g atom d X -> holds d X.
Proof.
  destruct X as [F|]; [apply (CS_mounts g OK)|]. intros (N1 & N2) flags o1 o2 HF. exists (boot TD d), []. split; auto.
  cbn [FsVolume.exec]. unfold ounit, omap, pbind, FsVolume.RedCoreVolMount. rewrite HF, N.eqb_refl. cbn [negb]. unfold pbind, RedVolMountMaster. cbn [v_d FsVolume.boot]. rewrite N1. reflexivity.
Qed.
(** The media after a power loss that loses everything that can be lost. *)
Lemma some_loss d : lose atom d (mkDev (d_blk d) (fun _ => false) (d_mrd d) (d_mrd d) (d_mstd d) (d_mstd d)).
Proof using. clear. unfold lose; cbn. intuition. Qed.
Lemma unmounted_DVo v : freach v -> v_mnt v = false -> s_res (v_s v) = false /\ DVo WF g atom (left_ v) (v_d v).
Proof.
  intros (t & H) MN.
  assert (Z : exists P, s_res (v_s v) = false /\ DVo WF g atom P (v_d v)).
  { destruct (C45_refines t v H) as ([[W C ro mask|X mask]|P mask|P mask] & _ & S); cbn in S.
    - destruct S as ((? & ? & X) & _). pose proof (x_mnt _ _ _ _ _ _ _ X). congruence.
    - exists (eq X). split; [apply S|]. destruct S as (_ & _ & HM & _). apply (MS_DVo WF g OK atom (eq X) _ X HM eq_refl).
    - destruct S. congruence.
    - exists P. split; apply S. }
  destruct Z as (P & RS & HC & HB). split; auto. split.
  - intros d' L. destruct (HC d' L) as (X & PX & MX). exists X. split; auto. exists (v_d v), d'. split; [apply FltVolumeP.mayhap_refl|]. split; [auto|apply MS_holds; auto].
  - intros d2 PD ST. destruct (HB d2 PD ST) as (X & PX & MX). exists X. split; auto.
    pose proof (some_loss d2) as L. exists (v_d v). eexists. split; [apply FltVolumeP.mayhap_refl|]. split; [eapply (part_lose atom); eauto|].
    apply MS_holds. destruct (FsFormat.MS_CRo WF g OK atom (eq X) d2 X MX eq_refl _ L) as (Y & <- & MY). exact MY.
Qed.
Lemma Off_leaves P mask v : FSim v (Off P mask) -> leaves_one v P.
Proof.
  intros (A1 & A2 & A3 & A4) d d' MH LO. unfold dirty in MH. rewrite A1 in MH. destruct A4 as (CR0 & _).
  destruct (CR0 d' (mayhap_none_lose atom _ _ _ MH LO)) as (X & PX & MX). exists X. split; auto. apply MS_holds. exact MX.
Qed.
Lemma reformat2 (P : option fs -> Prop) X : reformat (reformat P) X -> reformat P X.
Proof using. clear. unfold reformat. tauto. Qed.
Lemma Umt_leaves v X mask : Sim v (Umt X mask) -> leaves_one v (eq X).
Proof.
  intros (MN & RS & HM & MK) d d' MH LO. unfold dirty in MH. rewrite MN in MH. exists X. split; auto. apply MS_holds.
  destruct (FsFormat.MS_CRo WF g OK atom (eq X) _ X HM eq_refl d' (mayhap_none_lose atom _ _ _ MH LO)) as (Y & <- & MY). exact MY.
Qed.

(** Mounting or formatting failed with EIO. *)
Inductive off_failures : vol -> vol -> Prop :=
| OF_nil v : off_failures v v
| OF_mount v flags v1 v2 : N.land flags MM = flags -> fstep v (Some (ECall (CMount flags) (Err EIO))) v1 -> off_failures v1 v2 -> off_failures v v2
| OF_format v v1 v2 : fstep v (Some (ECall CFormat (Err EIO))) v1 -> off_failures v1 v2 -> off_failures v v2.
(** Formatting an unmounted volume either does what it does without failures, and a power loss afterwards leaves an empty
    file system; or it fails with EIO, and the volume stays unmounted.  A power loss then, and at every instant of the
    format, leaves a state that a power loss before the format could have left, or no file system, or an empty one.
    Both calls may be repeated: a format that succeeds leaves an empty file system; a mount that succeeds shows and keeps
    one of the states just named. *)
Theorem C45_failed_format v o1 o2 r v' t : freach v -> v_mnt v = false -> s_afree (v_s v) = 0 -> room v o1 o2 ->
  execF CFormat o1 o2 v r v' t ->
  v_mnt v' = false /\
  (forall sn d d', In sn t -> sn d -> lose atom d d' -> exists X, or_fresh (left_ v) X /\ holds d' X) /\
  (exec CFormat o1 o2 v = (r, v', t) /\ r = Ok OUnit /\ leaves_one v' (eq (Some Fempty)) \/
   r = Err EIO /\ leaves_one v' (or_fresh (left_ v)) /\
   forall v2, off_failures v' v2 -> v_mnt v2 = false /\ leaves_one v2 (or_fresh (left_ v)) /\
     (forall r3 v3, fstep v2 (Some (ECall CFormat r3)) v3 -> r3 = Err EIO \/ r3 = Ok OUnit /\ v_mnt v3 = false /\ leaves_one v3 (eq (Some Fempty))) /\
     (forall flags r3 v3, N.land flags MM = flags -> fstep v2 (Some (ECall (CMount flags) r3)) v3 ->
        r3 = Err EIO \/
        r3 = Ok OUnit /\ s_ro (v_s v3) = negb (N.land flags RED_MOUNT_READONLY =? 0) /\ exists X, or_fresh (left_ v) (Some X) /\ shows v3 X /\ durable v3 X)).
Proof.
  intros R MN AF RM EX. destruct (unmounted_DVo v R MN) as (RS & HD).
  destruct (umt_format g OK atom MM TM TD o1 o2 v (left_ v) (v_mask v) r v' t MN RS AF HD eq_refl RM EX) as (F & T).
  split; [destruct F as [(_ & _ & F)|(_ & F)]; apply F|]. split.
  { intros sn d d' IN HS LO. unfold FsFormat.TRo in T. rewrite Forall_forall in T. destruct (T sn IN d HS d' LO) as (X & PX & MX). exists X. split; [exact PX|apply MS_holds; exact MX]. }
  destruct F as [(E & -> & F)|(-> & F)]; [left; split; [auto|]; split; [auto|]; eapply Umt_leaves; eauto|right]. split; auto.
  split; [eapply Off_leaves; exact F|]. intros v2 FF.
  assert (S2 : FSim v2 (Off (reformat (left_ v)) (v_mask v))).
  { set (P := left_ v) in *. clearbody P. clear - F FF OK. revert F. induction FF as [v0|v0 fl v1 v2 HF S1 _ IH|v0 v1 v2 S1 _ IH]; intros F; auto; apply IH.
    - destruct (fstep_sim g OK atom MM TM TD v0 _ v1 _ F S1) as (x & FS & SX1). inversion FS; subst; auto; try congruence.
    - destruct (fstep_sim g OK atom MM TM TD v0 _ v1 _ F S1) as (x & FS & SX1). inversion FS; subst; auto; try congruence.
      destruct SX1 as (B1 & B2 & B3 & B4). split; [auto|]. split; [auto|]. split; [auto|]. eapply DVo_imp; [|exact B4]. intros X. apply reformat2. }
  split; [apply S2|]. split; [eapply Off_leaves; exact S2|]. split.
  - intros r3 v3 S3. destruct (fstep_sim g OK atom MM TM TD v2 _ v3 _ S2 S3) as (x & FS & SX). inversion FS; subst; auto; try congruence.
    + exfalso. match goal with Q : _ \/ _ |- _ => destruct Q as [Q|[Q|[Q|[Q|[(? & Q)|[Q|Q]]]]]]; discriminate Q end.
    + right. split; auto. split; [apply SX|]. eapply Umt_leaves; exact SX.
  - intros flags r3 v3 FL S3. destruct (fstep_sim g OK atom MM TM TD v2 _ v3 _ S2 S3) as (x & FS & SX). inversion FS; subst; auto; try congruence.
    + exfalso. match goal with Q : _ \/ _ |- _ => destruct Q as [Q|[Q|[Q|[Q|[(? & Q)|[Q|Q]]]]]]; discriminate Q end.
    + right. split; auto. split; [apply SX|]. eexists. split; [eassumption|]. split; [exact (Sim_shows g OK atom MM TM TD _ _ _ _ _ SX)|exact (Sim_durable g OK atom MM TM TD _ _ _ _ _ SX)].
Qed.
End P.
