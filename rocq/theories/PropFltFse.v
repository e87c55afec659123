(** C46: with the FSE API, too, a device failure is no worse than a power loss.

    Histories ([xhistory]) may contain FSE calls during which any read, write or flush of the device fails ([fexecF]); they
    include all histories without failures.  In terms of [fshows], [fmounts] and [fdurable] of PropFse.v. *)
From Verif Require Import Base Count FsState FsImap FsInode FsData FsTree FsImapProof FsInv FsStep FsBranch FsRead FsWrite FsVol FsVol2 FsVol3 FsVol4 FsWp FsDir FsDirP FsCore FsWr FsRo FsSpec FsSpecP FsCoreP FsCoreP2 FsCoreP3 FsCoreP4 FsCoreP5 FsMach FsVolume FsVolumeG FsFormat FsReach PropFs PropFull FseSpec FseVol FseReach PropFse.
From Verif Require Import FltMonad FltImap FltInode FltData FltDir FltCore FltP FltCoreP FltVolume FltVolumeP FseFltSpec FltFse FltFseReach.
Ltac Zify.zify_post_hook ::= idtac.
Close Scope flt_scope.

Section Defs.
Variable g : cfg.
Variable atom : bool.
Variable MM TM TD : N.   (* RED_MOUNT_MASK, RED_TRANSACT_MASK, REDCONF_TRANSACT_DEFAULT *)
(** After power-on with unformatted media the events [t] happened, some of them calls that met device failures. *)
Definition xhistory (t : list fevent) (v : vol) : Prop := exists d, unformatted d /\ xsteps g atom MM TM TD (boot TD d) t v.
Definition xreach (v : vol) : Prop := exists t, xhistory t v.

(** The states that a power loss during the call [c] may leave, where W is the state the volume shows before the call
    and C the state last committed: C, or a state committed by a transaction point that is part of the call. *)
Definition fleaves (W C : ffs) (mask : N) (c : fcall) (X : ffs) : Prop :=
  X = C \/
  c = FTransact /\ X = W \/
  c = FUnmount /\ has mask T_UMOUNT = true /\ X = W \/
  fmodifies c = true /\ has mask T_VOLFULL = true /\ X = W \/
  fmodifies c = true /\ has mask (fevbit c) = true /\ exists r, fmod_ok (INODE_SIZE_MAX g) c r W X.
(** Losing power now leaves one of the states of P. *)
Definition fsurvives (v : vol) (P : ffs -> Prop) : Prop :=
  forall d d', mayhap (dirty v) (v_d v) d -> lose atom d d' -> exists X, P X /\ fmounts g atom MM TM TD d' X.

(** The media [d] after power-on: a file system that can be mounted, or none, and mounting fails with EIO. *)
Definition fholds (d : dev) (X : option ffs) : Prop :=
  match X with
  | Some W => fmounts g atom MM TM TD d W
  | None => forall o1 o2, exists v t, fexec g atom MM TM FMount o1 o2 (boot TD d) = (Err EIO, v, t) /\ v_mnt v = false
  end.
(** Losing power now can leave the state X; leaves one of the states of P. *)
Definition fleft (v : vol) (X : option ffs) : Prop := exists d d', mayhap (dirty v) (v_d v) d /\ lose atom d d' /\ fholds d' X.
Definition fleaves_one (v : vol) (P : option ffs -> Prop) : Prop :=
  forall d d', mayhap (dirty v) (v_d v) d -> lose atom d d' -> exists X, P X /\ fholds d' X.
(** One of the states of P, none, or one where all files have length zero. *)
Definition for_fresh (P : option ffs -> Prop) (Y : option ffs) : Prop := P Y \/ Y = None \/ Y = Some (Fnew (ICNT g)).
End Defs.

(** Results on a volume that is mounted read-only. *)
Definition frefused (e : fevent) : Prop :=
  match e with
  | FECall (FWrite _ _ len _) r => r = Err EROFS \/ r = Err EINVAL /\ INT32_MAX < len
  | FECall (FTruncate _ _) r | FECall FTransact r | FECall FRollback r => r = Err EROFS
  | FECall (FMaskSet _) r => r = Err EROFS \/ r = Err EINVAL
  | FECall FFormat r => r = Err EBUSY
  | _ => True
  end.
Definition fstays (e : fevent) : Prop := match e with FECall c _ => c <> FUnmount | FECrash _ => False end.

Section P.
Variable g : cfg.
Hypothesis OK : cfg_ok g.
Variable atom : bool.
Variable MM TM TD : N.
Set Default Proof Using "All".
Notation fexec := (fexec g atom MM TM).
Notation fexecF := (fexecF g atom MM TM).
Notation xstep := (xstep g atom MM TM TD).
Notation xsteps := (xsteps g atom MM TM TD).
Notation fxsteps := (fxsteps (INODE_SIZE_MAX g) (ICNT g) TM TD).
Notation fpower_loss := (fpower_loss (INODE_SIZE_MAX g) (ICNT g) TM TD).
Notation xreach := (xreach g atom MM TM TD).
Notation fshows := (fshows g atom MM TM).
Notation fmounts := (fmounts g atom MM TM TD).
Notation fdurable := (fdurable g atom MM TM TD).
Notation fsurvives := (fsurvives g atom MM TM TD).
Notation fleaves := (fleaves g).
Notation stable := (stable atom).
Notation FSim := (FseReach.FSim g atom).
Notation XSim := (XSim g atom).
Notation good := (good g).
Notation fholds := (fholds g atom MM TM TD).
Notation fleft := (fleft g atom MM TM TD).
Notation fleaves_one := (fleaves_one g atom MM TM TD).
Notation for_fresh := (for_fresh g).

(** The histories without failures are among those considered here. *)
Theorem C46_includes t v : fhistory g atom MM TM TD t v -> xhistory g atom MM TM TD t v.
Proof. intros (d & (U1 & U2) & S). exists d. split; [split; auto|]. eapply (fsteps_xsteps g OK); eauto. instantiate (1 := FU None TD). exists None. repeat split; auto. Qed.
(** Every history with failures is one of the specification machine of FseFltSpec.v. *)
Theorem C46_refines t v : xhistory g atom MM TM TD t v -> exists x, fxsteps (FUp (FU None TD)) t x /\ XSim v x.
Proof. intros (d & (U1 & U2) & S). apply (xsteps_sim g OK atom MM TM TD _ _ _ S (FUp (FU None TD))). exists None. repeat split; auto. Qed.
Lemma xreach_up v : xreach v -> v_mnt v = true -> s_ro (v_s v) = false -> exists W C, FSim v (FM W C (v_mask v)).
Proof.
  intros (t & H) MN RO. destruct (C46_refines t v H) as ([[W C mask|X mask]|W C mask|P mask|P mask] & _ & S); cbn in S.
  - exists W, C. destruct S as (F & G & A1 & A2 & A3 & A4 & <-). exists F, G. auto.
  - destruct S as (Y & S & _). congruence.
  - destruct S as (F & G & _ & _ & _ & S & _). congruence.
  - destruct S as (P0 & (_ & S & _) & _). congruence.
  - destruct S as (P0 & _ & S & _). congruence.
Qed.
Lemma fpower_loss_leaves W C mask c X : fpower_loss (FM W C mask) c X -> fleaves W C mask c X.
Proof using.
  clear. unfold FseFltSpec.fpower_loss, PropFltFse.fleaves. intros H. inversion H; subst.
  match goal with Q : X = C \/ _ |- _ => destruct Q as [Q|[(M & [[Q|(V & Q)]|Q])|[(Q1 & Q2)|(Q1 & Q2 & Q3)]]] end; auto 10.
Qed.
Lemma FDown_survives (P Q : ffs -> Prop) mask v : (forall X, P X -> Q X) -> XSim v (FDown P mask) -> fsurvives v Q.
Proof.
  intros PQ (P0 & (MN & RO & RS & MK & D) & CV) d d' MH LO. unfold dirty in MH. rewrite MN in MH. destruct (D d MH) as (CR0 & _). destruct (CR0 d' LO) as (F & PF & CX).
  destruct (CV F PF) as (X & ZX & PX). exists X. split; auto. apply (FCS_mounts g OK atom MM TM TD d' F); auto.
Qed.
Lemma TRx_mounts (P Q : ffs -> Prop) t : (forall X, P X -> Q X) -> TRx g atom P t -> forall sn d d', In sn t -> sn d -> lose atom d d' -> exists X, Q X /\ fmounts d' X.
Proof.
  intros PQ T sn d d' IN HD LO. destruct (T sn d d' IN HD LO) as (F & X & CX & ZX & PX).
  exists X. split; auto. apply (FCS_mounts g OK atom MM TM TD d' F); auto.
Qed.
Lemma FRo_shows v W C mask : XSim v (FRo W C mask) -> fshows v W.
Proof.
  intros (F & G & HV & ZF & ZG & RO & MK). assert (MN : v_mnt v = true) by (destruct HV as (? & ? & X); apply X). split; auto.
  assert (GF : good F) by (destruct HV as (? & ? & X); exact (x_WF _ _ _ _ _ _ _ _ X)).
  assert (RR : forall A (m : M st A) f c, rs m -> 
    (forall C0 D0 F s, FSV g C0 D0 F s -> exists r, m s = (r, s) /\ (good F -> fread_ok c (ffs_of F) (match r with Ok a => Ok (f a) | Err e => Err e end))) ->
    exists r t, fmap_ f (FsVolume.mounted m) v = (r, v, t) /\ fread_ok c W r).
  { intros A m f c HR H. destruct (read_run good g OK atom m (fun r F => good F -> fread_ok c (ffs_of F) (match r with Ok a => Ok (f a) | Err e => Err e end)) v F G HR H HV) as (r & R & Q).
    specialize (Q GF). apply (fread_okZ _ _ _ _ ZF) in Q. unfold fmap_, pbind, pret. rewrite R. destruct r; eexists; eexists; (split; [reflexivity|exact Q]). }
  intros c o1 o2 RC. destruct c; try discriminate RC; cbn [FseVol.fexec].
  - destruct (N.ltb_spec INT32_MAX len) as [L|L].
    + exists (Err EINVAL), []. split; auto. cbn; auto.
    + apply (RR _ (FsCore.CoreFileRead g i off len) (fun x => FData (fst x) (snd x)) (FRead i off len)); [apply r_CoreFileRead|].
      intros C0 D0 F0 s HF. destruct (fread_file g OK i off len C0 D0 F0 s HF) as (r & R & X). eauto.
  - apply (RR _ (FseVol.CoreFileSizeGet g i) FNum (FSizeGet i)); [apply r_SizeGet|].
    intros C0 D0 F0 s HF. destruct (fsize_get g OK i C0 D0 F0 s HF) as (r & R & X). eauto.
Qed.
Lemma FRo_durable v W C mask : XSim v (FRo W C mask) -> fdurable v C.
Proof.
  intros (F & G & HV & ZF & ZG & RO & MK) d d' MH LO. assert (MN : v_mnt v = true) by (destruct HV as (? & ? & X); apply X). unfold dirty in MH. rewrite MN in MH.
  apply (FCS_mounts g OK atom MM TM TD d' G); auto. eapply (CS_lose good g OK); eauto. eapply (back_CS good g OK); eauto.
Qed.

(** A call on a writable volume either does what it does without failures, or fails with EIO; then the volume is still
    mounted but read-only.  If the call was one that only reads, the volume still shows the same state.  Otherwise a
    power loss then, and at every instant of the failing call, leaves a state that a power loss during the call could
    have left without a device failure. *)
Theorem C46_failed_call v c o1 o2 r v' t : xreach v -> v_mnt v = true -> s_ro (v_s v) = false -> room v o1 o2 ->
  fexecF c o1 o2 v r v' t ->
  exists W C, fshows v W /\ fdurable v C /\
    (fexec c o1 o2 v = (r, v', t) \/
     r = Err EIO /\ v_mnt v' = true /\ s_ro (v_s v') = true /\
     (freads c = true -> fshows v' W /\ fdurable v' C) /\
     (freads c = false -> fsurvives v' (fleaves W C (v_mask v) c)) /\
     forall sn d d', In sn t -> sn d -> lose atom d d' -> exists X, fleaves W C (v_mask v) c X /\ fmounts d' X).
Proof.
  intros R MN RO RM EX. destruct (xreach_up v R MN RO) as (W & C & S). exists W, C.
  split; [exact (FSim_shows g OK atom MM TM TD _ _ _ _ S)|]. split; [exact (FSim_durable g OK atom MM TM TD _ _ _ _ S)|].
  destruct (fup_mounted g OK atom MM TM TD c o1 o2 v W C (v_mask v) r v' t RM S EX) as [E|(x & FT & FS & T)]; auto. right.
  pose proof (TRx_mounts _ _ t (fpower_loss_leaves W C (v_mask v) c) T) as TM'.
  destruct FT as [(HC & -> & ->)|(RC & -> & ->)]; (split; [auto|]).
  - pose proof FS as (P0 & (A1 & A2 & _) & _). split; [auto|]. split; [auto|]. split; [|split; auto].
    + intros RC. exfalso. destruct HC as [HC|[->|[->| ->]]]; try discriminate. destruct c; discriminate.
    + intros _. eapply FDown_survives; [apply fpower_loss_leaves|exact FS].
  - pose proof (FRo_shows _ _ _ _ FS) as SH. split; [apply SH|]. split; [destruct FS as (F & G & FS); apply FS|]. split; [|split; auto].
    + intros _. split; auto. eapply FRo_durable; eauto.
    + congruence.
Qed.

(** After such a failure, as long as the volume is not unmounted and power is not lost, and whatever else fails: calls that
    modify files, transactions and rollbacks fail with EROFS, and a power loss at any time leaves one of the same
    states. *)
Lemma FDown_run P mask v t v2 : XSim v (FDown P mask) -> xsteps v t v2 -> Forall fstays t -> XSim v2 (FDown P mask) /\ Forall frefused t.
Proof.
  intros D H. revert D. induction H as [v|v e v1 t v2 S1 _ IH|v v1 t v2 S1 _ IH]; intros D ST.
  - auto.
  - inversion ST; subst. destruct (xstep_sim g OK atom MM TM TD v (Some e) v1 (FDown P mask) D S1) as (x & FS & SX).
    assert (Z0 : x = FDown P mask /\ frefused e).
    { inversion FS; subst; cbn in *; try congruence; try tauto; (split; [reflexivity|]).
      - match goal with Q : ro_result _ _ ?c ?r |- _ => destruct c; cbn in Q |- *; subst; auto end.
        + destruct (N.ltb_spec INT32_MAX len); auto.
        + destruct (_ =? _); auto.
      - destruct c; try discriminate; exact Logic.I. }
    destruct Z0 as (-> & RF). destruct (IH SX) as (A & B); auto.
  - apply IH; auto. exact (xstep_sim g OK atom MM TM TD v None v1 (FDown P mask) D S1).
Qed.
Lemma ffail_Down v c o1 o2 r v' t : xreach v -> v_mnt v = true -> s_ro (v_s v) = false -> room v o1 o2 ->
  fexecF c o1 o2 v r v' t -> fexec c o1 o2 v <> (r, v', t) -> freads c = false ->
  exists W C, fshows v W /\ fdurable v C /\ XSim v' (FDown (fleaves W C (v_mask v) c) (v_mask v)).
Proof.
  intros R MN RO RM EX NE RC. destruct (xreach_up v R MN RO) as (W & C & S). exists W, C.
  split; [exact (FSim_shows g OK atom MM TM TD _ _ _ _ S)|]. split; [exact (FSim_durable g OK atom MM TM TD _ _ _ _ S)|].
  destruct (fup_mounted g OK atom MM TM TD c o1 o2 v W C (v_mask v) r v' t RM S EX) as [E|(x & FT & FS & T)]; [contradiction|].
  destruct FT as [(HC & -> & ->)|(RC' & -> & ->)]; [|congruence].
  destruct FS as (P0 & D & CV). exists P0. split; auto. intros F PF. destruct (CV F PF) as (X & ZX & PX). exists X. split; auto. apply fpower_loss_leaves; auto.
Qed.
Theorem C46_stays_readonly v c o1 o2 r v' t : xreach v -> v_mnt v = true -> s_ro (v_s v) = false -> room v o1 o2 ->
  fexecF c o1 o2 v r v' t -> fexec c o1 o2 v <> (r, v', t) -> freads c = false ->
  exists W C, fshows v W /\ fdurable v C /\
    forall t2 v2, xsteps v' t2 v2 -> Forall fstays t2 ->
      v_mnt v2 = true /\ s_ro (v_s v2) = true /\ Forall frefused t2 /\ fsurvives v2 (fleaves W C (v_mask v) c).
Proof.
  intros R MN RO RM EX NE RC. destruct (ffail_Down v c o1 o2 r v' t R MN RO RM EX NE RC) as (W & C & SW & DC & D).
  exists W, C. split; auto. split; auto. intros t2 v2 H ST. destruct (FDown_run _ _ _ _ _ D H ST) as (D2 & RF).
  pose proof D2 as (P0 & (A1 & A2 & _) & _). split; auto. split; auto. split; auto. eapply FDown_survives; [|exact D2]. auto.
Qed.

(** Unmounting the volume then succeeds.  If the device answers reads of the master block and of the metaroots with what is on the media for
    good ([stable], part of [xstep]), mounting it again either fails with EIO, and may be tried again, or succeeds; the
    volume is then writable, and shows and keeps one of the states a power loss during the failed call could have left. *)
Inductive fmount_failures : vol -> vol -> Prop :=
| FMF_nil v : fmount_failures v v
| FMF_cons v v1 v2 : xstep v (Some (FECall FMount (Err EIO))) v1 -> fmount_failures v1 v2 -> fmount_failures v v2.
Theorem C46_remount v c o1 o2 r v' t : xreach v -> v_mnt v = true -> s_ro (v_s v) = false -> room v o1 o2 ->
  fexecF c o1 o2 v r v' t -> fexec c o1 o2 v <> (r, v', t) -> freads c = false ->
  exists W C, fshows v W /\ fdurable v C /\
    forall t2 v2 r3 v3, xsteps v' t2 v2 -> Forall fstays t2 -> xstep v2 (Some (FECall FUnmount r3)) v3 ->
      r3 = Ok FUnit /\ v_mnt v3 = false /\ fsurvives v3 (fleaves W C (v_mask v) c) /\
      forall v4 r5 v5, fmount_failures v3 v4 -> xstep v4 (Some (FECall FMount r5)) v5 ->
        r5 = Err EIO /\ v_mnt v5 = false /\ fsurvives v5 (fleaves W C (v_mask v) c) \/
        r5 = Ok FUnit /\ s_ro (v_s v5) = false /\
        exists X, fleaves W C (v_mask v) c X /\ fshows v5 X /\ fdurable v5 X.
Proof.
  intros R MN RO RM EX NE RC. destruct (ffail_Down v c o1 o2 r v' t R MN RO RM EX NE RC) as (W & C & SW & DC & D).
  exists W, C. split; auto. split; auto. intros t2 v2 r3 v3 H ST S3. destruct (FDown_run _ _ _ _ _ D H ST) as (D2 & _).
  set (P := fleaves W C (v_mask v) c) in *.
  set (PO := fun Y : option ffs => exists X, P X /\ Y = Some X).
  assert (OFF : forall u mk, XSim u (FOff PO mk) -> fsurvives u P).
  { intros u mk (P0 & CV & A1 & A2 & A3 & A4) d d' MH LO. unfold dirty in MH. rewrite A1 in MH. destruct A4 as (CR0 & _).
    destruct (CR0 d' (fmayhap_lose atom _ _ _ MH LO)) as (F & PF & CX).
    destruct (CV F PF) as (Y & ZX & (X & PX & ->)). destruct F as [F|]; [|destruct ZX]. exists X. split; auto. apply (FCS_mounts g OK atom MM TM TD d' F); auto. }
  assert (OM : forall u mk, XSim u (FOff PO mk) -> v_mnt u = false) by (intros u mk (P0 & _ & A & _); exact A).
  destruct (xstep_sim g OK atom MM TM TD v2 _ v3 (FDown P (v_mask v)) D2 S3) as (x & FS & SX).
  assert (Z0 : x = FOff PO (v_mask v) /\ r3 = Ok FUnit).
  { inversion FS; subst; auto; try discriminate; cbn in *; contradiction. }
  destruct Z0 as (-> & ->). split; auto. split; [eauto|]. split; [eapply OFF; eauto|].
  intros v4 r5 v5 MF S5.
  assert (S4 : XSim v4 (FOff PO (v_mask v))).
  { clearbody PO. clear S5 S3 H. clear -MF SX OK. revert SX. induction MF as [v0|v0 v1 v2 S1 MF IH]; intros SX; auto. apply IH.
    destruct (xstep_sim g OK atom MM TM TD v0 _ v1 _ SX S1) as (x & FS & SX1). inversion FS; subst; auto; try congruence. }
  destruct (xstep_sim g OK atom MM TM TD v4 _ v5 _ S4 S5) as (x & FS5 & SX5).
  inversion FS5; subst; try congruence.
  - exfalso. match goal with Q : _ \/ _ |- _ => destruct Q as [Q|[Q|[Q|[Q|[(? & Q)|Q]]]]]; discriminate Q end.
  - right. split; auto. split; [destruct SX5 as (F & G & SX5); apply SX5|]. match goal with Q : PO (Some ?Y) |- _ => exists Y; destruct Q as (X0 & PX0 & EX0) end. injection EX0 as ->. split; [exact PX0|].
    split; [exact (FSim_shows g OK atom MM TM TD _ _ _ _ SX5)|exact (FSim_durable g OK atom MM TM TD _ _ _ _ SX5)].
  - left. split; auto. split; [eauto|]. eapply OFF; eauto.
Qed.

(** A failing call that only reads: whatever happens next short of an unmount and a power loss, calls that modify are
    refused, and reading calls either return what the state W before the failure says or fail with EIO again; the
    committed state stays C.  Unmounting succeeds; everything that was not committed is lost then, and mounting
    again makes the volume writable and shows C. *)
Definition fread_or_eio (W : ffs) (e : fevent) : Prop := match e with FECall c r => freads c = true -> fread_ok c W r \/ r = Err EIO | _ => True end.
Lemma FRo_run W C mask v t v2 : XSim v (FRo W C mask) -> xsteps v t v2 -> Forall fstays t -> XSim v2 (FRo W C mask) /\ Forall frefused t /\ Forall (fread_or_eio W) t.
Proof.
  intros D H. revert D. induction H as [v|v e v1 t v2 S1 _ IH|v v1 t v2 S1 _ IH]; intros D ST.
  - auto.
  - inversion ST; subst. destruct (xstep_sim g OK atom MM TM TD v (Some e) v1 (FRo W C mask) D S1) as (x & FS & SX).
    assert (Z0 : x = FRo W C mask /\ frefused e /\ fread_or_eio W e).
    { inversion FS; subst; cbn in *; try congruence; try tauto; (split; [reflexivity|]).
      - match goal with Q : ro_result _ _ ?c ?r |- _ => destruct c; cbn in Q |- *; try contradiction; subst; (split; [auto|discriminate]) end.
        + destruct (N.ltb_spec INT32_MAX len); auto.
        + destruct (_ =? _); auto.
      - split; auto. destruct c; try discriminate; exact Logic.I. }
    destruct Z0 as (-> & RF & RE). destruct (IH SX) as (A & B & B'); auto.
  - apply IH; auto. exact (xstep_sim g OK atom MM TM TD v None v1 (FRo W C mask) D S1).
Qed.
Theorem C46_failed_read v c o1 o2 v' t : xreach v -> v_mnt v = true -> s_ro (v_s v) = false -> room v o1 o2 ->
  freads c = true -> fexecF c o1 o2 v (Err EIO) v' t ->
  exists W C, fshows v W /\ fdurable v C /\
    forall t2 v2, xsteps v' t2 v2 -> Forall fstays t2 ->
      s_ro (v_s v2) = true /\ fshows v2 W /\ fdurable v2 C /\ Forall frefused t2 /\ Forall (fread_or_eio W) t2 /\
      forall r3 v3, xstep v2 (Some (FECall FUnmount r3)) v3 -> r3 = Ok FUnit /\ fdurable v3 C /\
        forall r5 v5, xstep v3 (Some (FECall FMount r5)) v5 -> r5 = Err EIO \/ r5 = Ok FUnit /\ s_ro (v_s v5) = false /\ fshows v5 C.
Proof.
  intros R MN RO RM RC EX. destruct (xreach_up v R MN RO) as (W & C & S). exists W, C.
  split; [exact (FSim_shows g OK atom MM TM TD _ _ _ _ S)|]. split; [exact (FSim_durable g OK atom MM TM TD _ _ _ _ S)|].
  destruct (fup_mounted g OK atom MM TM TD c o1 o2 v W C (v_mask v) (Err EIO) v' t RM S EX) as [E|(x & FT & FS & T)].
  - exfalso. destruct (FSim_shows g OK atom MM TM TD _ _ _ _ S) as (_ & SH). destruct (SH c o1 o2 RC) as (r0 & t0 & E' & RR). rewrite E in E'. injection E' as <- _ _.
    destruct c; try discriminate RC; cbn in RR; intuition congruence.
  - destruct FT as [(HC & _)|(_ & _ & ->)].
    { exfalso. destruct HC as [HC|[->|[->| ->]]]; try discriminate. destruct c; discriminate. }
    intros t2 v2 H ST. destruct (FRo_run W C (v_mask v) v' t2 v2 FS H ST) as (S2 & RF & RE).
    split; [destruct S2 as (F & G & S2); apply S2|]. split; [eapply FRo_shows; eauto|]. split; [eapply FRo_durable; eauto|]. split; auto. split; auto.
    intros r3 v3 S3. destruct (xstep_sim g OK atom MM TM TD v2 _ v3 _ S2 S3) as (x & FS3 & SX).
    assert (Z0 : x = FUp (FU (Some C) (v_mask v)) /\ r3 = Ok FUnit).
    { inversion FS3; subst; auto; try discriminate; cbn in *; contradiction. }
    destruct Z0 as (-> & ->). split; auto. split; [exact (FU_durable g OK atom MM TM TD _ _ _ SX)|].
    intros r5 v5 S5. destruct (xstep_sim g OK atom MM TM TD v3 _ v5 _ SX S5) as (x & FS5 & SX5).
    inversion FS5; subst; auto. match goal with Q : fastep _ _ _ _ _ _ _ |- _ => inversion Q; subst end.
    + exfalso. match goal with Q : _ \/ _ |- _ => destruct Q as [Q|[Q|[Q|[Q|[(? & Q)|Q]]]]]; discriminate Q end.
    + right. split; auto. split; [destruct SX5 as (F & G & SX5); apply SX5|]. exact (FSim_shows g OK atom MM TM TD _ _ _ _ SX5).
Qed.

(** ** Formatting *)
Lemma MS_fholds d Y X : FsFormat.MS good g atom d Y -> Zo Y X -> fholds d X.
Proof.
  destruct Y as [F|], X as [W|]; try (intros _ HZ; exfalso; exact HZ).
  - intros HM HZ. exact (FCS_mounts g OK atom MM TM TD d F W HM HZ).
  - intros (N1 & N2) _. intros o1 o2. exists (boot TD d), []. split; auto.
    cbn [FseVol.fexec]. change (v_mnt (boot TD d)) with false. cbn [negb]. unfold fmap_, FsVolume.RedCoreVolMount.
    assert (E0 : N.land (MOUNT_DEFAULT MM) MM = MOUNT_DEFAULT MM). { unfold MOUNT_DEFAULT. now rewrite <- N.land_assoc, N.land_diag. }
    rewrite E0, N.eqb_refl. cbn [negb]. unfold pbind, RedVolMountMaster. cbn [v_d FsVolume.boot]. rewrite N1. reflexivity.
Qed.
Lemma fsome_loss d : lose atom d (mkDev (d_blk d) (fun _ => false) (d_mrd d) (d_mrd d) (d_mstd d) (d_mstd d)).
Proof using. clear. unfold lose; cbn. intuition. Qed.
Lemma funmounted_DVo v : xreach v -> v_mnt v = false ->
  s_res (v_s v) = false /\ DVo good g atom (fun F => exists X, Zo F X /\ fleft v X) (v_d v).
Proof.
  intros (t & H) MN.
  assert (Q : exists P : option fs -> Prop, s_res (v_s v) = false /\ (forall F, P F -> exists X, Zo F X) /\ DVo good g atom P (v_d v)).
  { destruct (C46_refines t v H) as ([[W C mask|X mask]|W C mask|P mask|P mask] & _ & S); cbn in S.
    - destruct S as (F & G & (? & ? & X) & _). pose proof (x_mnt _ _ _ _ _ _ _ _ X). congruence.
    - destruct S as (Y & A1 & A2 & A3 & A4 & A5). exists (eq Y). split; auto. split; [intros F <-; eauto|]. apply (MS_DVo good g OK atom (eq Y) _ Y A3 eq_refl).
    - destruct S as (F & G & (? & ? & X) & _). pose proof (x_mnt _ _ _ _ _ _ _ _ X). congruence.
    - destruct S as (P0 & (S & _) & _). congruence.
    - destruct S as (P0 & CV & A1 & A2 & A3 & A4). exists P0. split; auto. split; auto. intros F PF. destruct (CV F PF) as (X & A & _). eauto. }
  destruct Q as (P & RS & ZX & HC & HB). split; auto. split.
  - intros d' L. destruct (HC d' L) as (F & PF & MX). destruct (ZX F PF) as (X & HX). exists F. split; auto. exists X. split; auto.
    exists (v_d v), d'. split; [apply FltVolumeP.mayhap_refl|]. split; [auto|eapply MS_fholds; eauto].
  - intros d2 PD ST. destruct (HB d2 PD ST) as (F & PF & MX). destruct (ZX F PF) as (X & HX). exists F. split; auto. exists X. split; auto.
    pose proof (fsome_loss d2) as L. exists (v_d v). eexists. split; [apply FltVolumeP.mayhap_refl|]. split; [eapply (part_lose atom); eauto|].
    eapply MS_fholds; [|exact HX]. destruct (FsFormat.MS_CRo good g OK atom (eq F) d2 F MX eq_refl _ L) as (Y & <- & MY). exact MY.
Qed.
Lemma FOff_leaves P mask v : XSim v (FOff P mask) -> fleaves_one v P.
Proof.
  intros (P0 & CV & A1 & A2 & A3 & A4) d d' MH LO. unfold dirty in MH. rewrite A1 in MH. destruct A4 as (CR0 & _).
  destruct (CR0 d' (fmayhap_lose atom _ _ _ MH LO)) as (F & PF & MX). destruct (CV F PF) as (X & HX & PX). exists X. split; auto. eapply MS_fholds; eauto.
Qed.
Lemma freformat2 icnt (P : option ffs -> Prop) X : freformat icnt (freformat icnt P) X -> freformat icnt P X.
Proof using. clear. unfold freformat. tauto. Qed.
Lemma FU_leaves v X mask : FSim v (FU X mask) -> fleaves_one v (eq X).
Proof.
  intros (Y & MN & RS & HM & HZ & MK) d d' MH LO. unfold dirty in MH. rewrite MN in MH. exists X. split; auto. eapply MS_fholds; [|exact HZ].
  destruct (FsFormat.MS_CRo good g OK atom (eq Y) _ Y HM eq_refl d' (fmayhap_lose atom _ _ _ MH LO)) as (Y' & <- & MY). exact MY.
Qed.
(** Mounting or formatting failed. *)
Inductive foff_failures : vol -> vol -> Prop :=
| FOF_nil v : foff_failures v v
| FOF_mount v v1 v2 : xstep v (Some (FECall FMount (Err EIO))) v1 -> foff_failures v1 v2 -> foff_failures v v2
| FOF_format v e v1 v2 : xstep v (Some (FECall FFormat (Err e))) v1 -> foff_failures v1 v2 -> foff_failures v v2.
(** Formatting an unmounted volume either does what it does without failures, and a power loss afterwards leaves all files
    with length zero; or it fails with some error, and the volume stays unmounted.  (The loop that creates the inodes does
    not stop at an error: the error returned may be another than EIO.)  A power loss then, and at every instant of the
    format, leaves a state that a power loss before the format could have left, or no file system, or all files with
    length zero.  Both calls may be repeated: a format that succeeds leaves all files with length zero; a mount that
    succeeds shows and keeps one of the states just named. *)
Theorem C46_failed_format v o1 o2 r v' t : xreach v -> v_mnt v = false -> s_afree (v_s v) = 0 -> room v o1 o2 ->
  fexecF FFormat o1 o2 v r v' t ->
  v_mnt v' = false /\
  (forall sn d d', In sn t -> sn d -> lose atom d d' -> exists X, for_fresh (fleft v) X /\ fholds d' X) /\
  (fexec FFormat o1 o2 v = (r, v', t) /\ r = Ok FUnit /\ fleaves_one v' (eq (Some (Fnew (ICNT g)))) \/
   (exists e, r = Err e) /\ fleaves_one v' (for_fresh (fleft v)) /\
   forall v2, foff_failures v' v2 -> v_mnt v2 = false /\ fleaves_one v2 (for_fresh (fleft v)) /\
     (forall r3 v3, xstep v2 (Some (FECall FFormat r3)) v3 ->
        (exists e, r3 = Err e) \/ r3 = Ok FUnit /\ v_mnt v3 = false /\ fleaves_one v3 (eq (Some (Fnew (ICNT g))))) /\
     (forall r3 v3, xstep v2 (Some (FECall FMount r3)) v3 ->
        r3 = Err EIO \/
        r3 = Ok FUnit /\ s_ro (v_s v3) = false /\ exists X, for_fresh (fleft v) (Some X) /\ fshows v3 X /\ fdurable v3 X)).
Proof.
  intros R MN AF RM EX. destruct (funmounted_DVo v R MN) as (RS & HD).
  destruct (umt_fformat g OK atom MM TM TD o1 o2 v _ (fleft v) (v_mask v) r v' t MN RS AF HD ltac:(intros F HF; exact HF) eq_refl RM EX) as (F & T).
  assert (T' : forall sn d d', In sn t -> sn d -> lose atom d d' -> exists X, for_fresh (fleft v) X /\ fholds d' X).
  { intros sn d d' IN HS LO. destruct (T sn d d' IN HS LO) as (X & Y & PX & MX & HX). exists X. split; [exact PX|]. eapply MS_fholds; eauto. }
  destruct F as [(E & -> & F)|((e & ->) & F)].
  { split; [destruct F as (Y & F & _); exact F|]. split; auto. left. split; [auto|]. split; [auto|]. eapply FU_leaves; eauto. }
  split; [destruct F as (P0 & _ & F & _); exact F|]. split; auto. right. split; [eauto|].
  split; [eapply FOff_leaves; exact F|]. intros v2 FF.
  assert (S2 : XSim v2 (FOff (freformat (ICNT g) (fleft v)) (v_mask v))).
  { set (P := fleft v) in *. clearbody P. clear - F FF OK. revert F. induction FF as [v0|v0 v1 v2 S1 _ IH|v0 e0 v1 v2 S1 _ IH]; intros F; auto; apply IH.
    - destruct (xstep_sim g OK atom MM TM TD v0 _ v1 _ F S1) as (x & FS & SX1). inversion FS; subst; auto; try congruence.
    - destruct (xstep_sim g OK atom MM TM TD v0 _ v1 _ F S1) as (x & FS & SX1). inversion FS; subst; auto; try congruence.
      destruct SX1 as (P0 & CV & B). exists P0. split; [|exact B]. intros G HG. destruct (CV G HG) as (X & A1 & A2). exists X. split; auto. apply freformat2. exact A2. }
  split; [destruct S2 as (P0 & _ & S2); apply S2|]. split; [eapply FOff_leaves; exact S2|]. split.
  - intros r3 v3 S3. destruct (xstep_sim g OK atom MM TM TD v2 _ v3 _ S2 S3) as (x & FS & SX). inversion FS; subst; try congruence.
    + left. eauto.
    + right. split; auto. split; [destruct SX as (Y & SX & _); exact SX|]. eapply FU_leaves; exact SX.
    + left. eauto.
  - intros r3 v3 S3. destruct (xstep_sim g OK atom MM TM TD v2 _ v3 _ S2 S3) as (x & FS & SX). inversion FS; subst; auto; try congruence.
    + exfalso. match goal with Q : _ \/ _ |- _ => destruct Q as [Q|[Q|[Q|[Q|[(? & Q)|Q]]]]]; discriminate Q end.
    + right. split; auto. split; [destruct SX as (G1 & G2 & SX); apply SX|]. eexists. split; [eassumption|].
      split; [exact (FSim_shows g OK atom MM TM TD _ _ _ _ SX)|exact (FSim_durable g OK atom MM TM TD _ _ _ _ SX)].
Qed.
End P.
