(** A volume that is writable stays writable (C41): without media errors no call turns it read-only, no call fails
    with EROFS or EIO, and a rename that fails is undone completely. *)
From Verif Require Import Base Count FsState FsImap FsInode FsData FsTree FsImapProof FsInv FsStep FsBranch FsRead FsWrite FsVol FsVol2 FsVol3 FsVol4 FsWp FsDir FsDirP FsCore FsWr FsRo FsSpec FsSpecP FsCoreP FsCoreP2 FsCoreP3 FsCoreP4 FsCoreP5 FsMach FsVolume FsVolumeP FsReach FsKeep PropFs PropVol PropNs.
Ltac Zify.zify_post_hook ::= idtac.

Section P.
Variable g : cfg.
Hypothesis OK : cfg_ok g.
Variable atom : bool.
Variable MM TM TD : N.
Set Default Proof Using "All".
Notation exec := (exec g atom MM TM).
Notation step := (step g atom MM TM TD).
Notation steps := (steps g atom MM TM TD).
Notation reach := (reach g atom MM TM TD).
Notation Sim := (Sim g atom).
Notation ask := (ask g atom MM TM).
Notation unchanged := (unchanged g atom MM TM).

(** statvfs succeeds and does not report the volume read-only. *)
Definition writable (v : vol) : Prop := exists nb ni, ask v CVolStat = Ok (OVStat (nb, ni, false)).
(** It is mounted and statvfs reports it read-only. *)
Definition readonly (v : vol) : Prop := exists nb ni, ask v CVolStat = Ok (OVStat (nb, ni, true)).

Lemma vstat_ro v x : ask v CVolStat = Ok (OVStat x) -> v_mnt v = true /\ s_ro (v_s v) = snd x.
Proof using.
  clear. unfold PropNs.ask. cbn [FsVolume.exec]. unfold omap, pbind, RedCoreVolStat, pret. destruct (v_mnt v); cbn; [|discriminate]. intros E. injection E as <-. auto.
Qed.
Lemma ro_vstat v : v_mnt v = true -> exists nb ni, ask v CVolStat = Ok (OVStat (nb, ni, s_ro (v_s v))).
Proof using.
  clear. intros MN. unfold PropNs.ask. cbn [FsVolume.exec]. unfold omap, pbind, RedCoreVolStat, pret. rewrite MN. cbn. eauto.
Qed.
Lemma writable_iff v : writable v <-> v_mnt v = true /\ s_ro (v_s v) = false.
Proof using.
  clear. split; [intros (nb & ni & E); apply vstat_ro in E; auto|]. intros [MN RO]. destruct (ro_vstat v MN) as (nb & ni & E). rewrite RO in E. exists nb, ni. auto.
Qed.

(** One call other than unmount. *)
Theorem C41_step v c r v' : reach v -> writable v -> step v (Some (ECall c r)) v' -> c <> CUnmount -> writable v'.
Proof.
  intros R HW S NU. rewrite writable_iff in *. destruct HW as [MN RO].
  destruct (mod_sim g OK atom MM TM TD v c r v' R S MN) as (W & C & SA & a' & AS & SA').
  assert (G : exists W' C' m, a' = Mnt W' C' false m).
  { rewrite RO in AS. inversion AS; subst; eauto. congruence. }
  destruct G as (W' & C' & m & ->). pose proof (Sim_mnt g OK atom MM TM TD _ _ _ _ _ SA'). destruct SA' as (_ & RO' & _). auto.
Qed.
(** No call reports a read-only volume or an I/O error. *)
Theorem C41_errors v c e v' : reach v -> writable v -> step v (Some (ECall c (Err e))) v' -> e <> EROFS /\ e <> EIO.
Proof.
  intros R HW S. rewrite writable_iff in *. destruct HW as [MN RO].
  destruct (mod_sim g OK atom MM TM TD v c _ v' R S MN) as (W & C & SA & a' & AS & SA'). rewrite RO in AS.
  assert (BD : forall p, bad_dir W p e -> e <> EROFS /\ e <> EIO) by (intros p [[-> _]|[-> _]]; split; discriminate).
  assert (BN : forall n, bad_name (NMAX g) n e -> e <> EROFS /\ e <> EIO) by (intros p [[-> _]|[-> _]]; split; discriminate).
  assert (NE : forall p n, no_entry W p n e -> e <> EROFS /\ e <> EIO) by (intros p n [-> _]; split; discriminate).
  assert (NF : forall i, not_file W i e -> e <> EROFS /\ e <> EIO) by (intros p [[-> _]|[-> _]]; split; discriminate).
  inversion AS; subst; try (split; discriminate).
  - match goal with H : op_err _ _ _ c W e |- _ => rename H into HE end.
    destruct HE as [->|HE]; [split; discriminate|].
    destruct c; cbn in HE; try contradiction;
      repeat match goal with H : _ \/ _ |- _ => destruct H end; eauto;
      match goal with H : _ /\ _ |- _ => destruct H; subst; split; discriminate end.
  - match goal with H : read_ok _ c W _ |- _ => rename H into HE end.
    destruct c; cbn in HE; try contradiction;
      repeat match goal with H : _ \/ _ |- _ => destruct H end; eauto;
      match goal with H : _ /\ _ |- _ => destruct H; subst; split; discriminate end.
Qed.
(** Any history of calls and buffer evictions after the volume was writable, until it is unmounted. *)
Theorem C41_history v t v' : steps v t v' -> reach v -> writable v ->
  Forall (fun e => match e with ECall CUnmount _ => False | ECall _ _ => True | ECrash _ => False end) t ->
  writable v' /\ forall c e, In (ECall c (Err e)) t -> e <> EROFS /\ e <> EIO.
Proof.
  induction 1 as [v|v e v1 t v2 S1 _ IH|v v1 t v2 S1 _ IH]; intros R HW QT.
  - split; [auto|intros c e []].
  - inversion QT as [|? ? Q1 Q2]; subst. destruct e as [c r|]; [|contradiction].
    assert (NU : c <> CUnmount) by (intros ->; contradiction).
    pose proof (C41_step v c r v1 R HW S1 NU) as HW1. destruct (IH (steps1 g atom MM TM TD _ _ _ R S1) HW1 Q2) as [I1 I2]. split; auto.
    intros c0 e0 [E|IN]; [|eauto]. injection E as -> ->. eapply C41_errors; eauto.
  - pose proof (steps0 g atom MM TM TD _ _ R S1) as R1. apply IH; auto. rewrite writable_iff in *. destruct HW as [MN RO].
    inversion S1; subst. cbn. auto.
Qed.
(** A mount without the read-only flag gives a writable volume. *)
Theorem C41_mount v flags r v' : reach v -> step v (Some (ECall (CMount flags) (Ok r))) v' ->
  if N.land flags RED_MOUNT_READONLY =? 0 then writable v' else readonly v'.
Proof.
  intros R S. destruct (reach_sim g OK atom MM TM TD v R) as (a & SA). destruct (step_sim g OK atom MM TM TD _ _ _ _ SA S) as (a' & AS & SA').
  inversion AS; subst; try discriminate.
  pose proof (Sim_mnt g OK atom MM TM TD _ _ _ _ _ SA') as MN. destruct SA' as (_ & RO & _). destruct (ro_vstat v' MN) as (nb & ni & E). rewrite RO in E.
  destruct (N.land flags RED_MOUNT_READONLY =? 0); exists nb, ni; exact E.
Qed.
(** A rename that fails, for whatever reason and at whatever point, has no effect at all that a user can see, and the volume
    stays writable. *)
Theorem C41_rename v sp sn dp dn e v' : reach v -> writable v -> step v (Some (ECall (CRename sp sn dp dn) (Err e))) v' ->
  unchanged v v' /\ writable v' /\
  exists F, shows g atom MM TM v F /\ op_err (NMAX g) (INODE_SIZE_MAX g) (ICNT g) (CRename sp sn dp dn) F e.
Proof.
  intros R HW S. pose proof HW as HW0. rewrite writable_iff in HW0. destruct HW0 as [MN RO].
  pose proof (C24_error g OK atom MM TM TD v (CRename sp sn dp dn) e v' R MN eq_refl S) as HU.
  assert (HW' : writable v') by (eapply C41_step; [exact R|exact HW|exact S|discriminate]).
  split; [exact HU|]. split; [exact HW'|].
  destruct (err_sim g OK atom MM TM TD v _ e v' R S eq_refl MN) as (W & C & C' & ro & mask & SA & SA' & HE).
  destruct HE as [[-> HE]|[-> _]].
  - exists W. split; auto. eapply (Sim_shows g OK); eauto.
  - destruct SA as (_ & X & _). congruence.
Qed.
End P.
