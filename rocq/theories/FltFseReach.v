(** Histories of a volume used through the FSE API on a device that may fail: they are histories of the specification of
    FseFltSpec.v. *)
From Verif Require Import Base Count FsState FsImap FsInode FsData FsTree FsImapProof FsInv FsStep FsBranch FsRead FsWrite FsVol FsVol2 FsVol3 FsVol4 FsWp FsDir FsDirP FsCore FsWr FsRo FsSpec FsSpecP FsCoreP FsCoreP2 FsCoreP3 FsCoreP4 FsCoreP5 FsMach FsVolume FsVolumeG FsFormat FsReach FseSpec FseVol FseReach.
From Verif Require Import FltMonad FltImap FltInode FltData FltDir FltCore FltP FltCoreP FltVolume FltVolumeP FseFltSpec FltFse.
Ltac Zify.zify_post_hook ::= idtac.
Close Scope flt_scope.

Section R.
Variable g : cfg.
Hypothesis OK : cfg_ok g.
Variable atom : bool.
Variable MOUNT_MASK TRANSACT_MASK TRANSACT_DEFAULT : N.
Set Default Proof Using "All".
Notation MX := (INODE_SIZE_MAX g).
Notation good := (good g).
Notation fexec := (fexec g atom MOUNT_MASK TRANSACT_MASK).
Notation fexecF := (fexecF g atom MOUNT_MASK TRANSACT_MASK).
Notation boot := (boot TRANSACT_DEFAULT).
Notation lose := (lose atom).
Notation stable := (stable atom).
Notation fstep := (FseReach.fstep g atom MOUNT_MASK TRANSACT_MASK TRANSACT_DEFAULT).
Notation fastep := (FseSpec.fastep MX (ICNT g) TRANSACT_MASK TRANSACT_DEFAULT).
Notation fxstep := (fxstep MX (ICNT g) TRANSACT_MASK TRANSACT_DEFAULT).
Notation fxsteps := (fxsteps MX (ICNT g) TRANSACT_MASK TRANSACT_DEFAULT).
Notation fpower_loss := (fpower_loss MX (ICNT g) TRANSACT_MASK TRANSACT_DEFAULT).
Notation FSim := (FseReach.FSim g atom).
Notation DN := (DN good g atom).
Notation DV := (DV good g atom).
Notation DVo := (DVo good g atom).
Notation MSo := (FsFormat.MS good g atom).
Notation TRo := (FsFormat.TRo good g atom).
Notation TR := (TR good g atom).
Notation VI := (VI good g atom).
Notation CS := (CS good g atom).
Notation OPS := (OPS good g).

(** As FltReach.settled. *)
Definition fsettled (v : vol) (c : fcall) : Prop := match c with FMount => v_mnt v = true \/ stable (v_d v) | _ => True end.
Inductive xstep : vol -> option fevent -> vol -> Prop :=
| XS_call v c o1 o2 r v' t : fallowed v c -> room v o1 o2 -> fsettled v c -> fexecF c o1 o2 v r v' t ->
    xstep v (Some (FECall c r)) v'
| XS_crash v c o1 o2 r v' t sn d d' : fallowed v c -> room v o1 o2 -> fsettled v c -> fexecF c o1 o2 v r v' t ->
    In sn t -> sn d -> lose d d' -> xstep v (Some (FECrash (Some c))) (boot d')
| XS_lost v d d' : mayhap (dirty v) (v_d v) d -> lose d d' -> xstep v (Some (FECrash None)) (boot d')
| XS_init v : v_mnt v = false -> stable (v_d v) -> xstep v (Some (FECrash None)) (boot (v_d v))
| XS_back v d seq : v_mnt v = true -> mayhap (s_wr (v_s v)) (v_d v) d -> v_seq v <= seq <= UINT64_MAX ->
    xstep v None (vset_seq seq (vset_d d v)).
Inductive xsteps : vol -> list fevent -> vol -> Prop :=
| XSs_nil v : xsteps v [] v
| XSs_cons v e v1 t v2 : xstep v (Some e) v1 -> xsteps v1 t v2 -> xsteps v (e :: t) v2
| XSs_back v v1 t v2 : xstep v None v1 -> xsteps v1 t v2 -> xsteps v t v2.

Definition cover (P0 : fs -> Prop) (P : ffs -> Prop) : Prop := forall F, P0 F -> exists X, Z F X /\ P X.
Definition covero (P0 : option fs -> Prop) (P : option ffs -> Prop) : Prop := forall F, P0 F -> exists X, Zo F X /\ P X.
Definition XSim (v : vol) (x : fxst) : Prop :=
  match x with
  | FUp a => FSim v a
  | FRo W C mask => exists F G, VI v F G /\ Z F W /\ Z G C /\ s_ro (v_s v) = true /\ v_mask v = mask
  | FDown P mask => exists P0 : fs -> Prop, DN P0 mask v /\ cover P0 P
  | FOff P mask => exists P0 : option fs -> Prop, covero P0 P /\ v_mnt v = false /\ s_res (v_s v) = false /\ v_mask v = mask /\ DVo P0 (v_d v)
  end.
(** Every instant leaves one of the states of P. *)
Definition TRx (P : ffs -> Prop) (t : list snap) : Prop :=
  forall sn d d', In sn t -> sn d -> lose d d' -> exists F X, CS d' F /\ Z F X /\ P X.
Lemma TR_TRx (P0 : fs -> Prop) (P : ffs -> Prop) t : cover P0 P -> TR P0 t -> TRx P t.
Proof using.
  intros H T sn d d' IN HD LO. unfold FsVolumeG.TR in T. rewrite Forall_forall in T. destruct (T sn IN d HD d' LO) as (F & HF & CF).
  destruct (H F HF) as (X & ZX & PX). eauto.
Qed.
Lemma TRx_nil P : TRx P []. Proof using. intros sn d d' []. Qed.

(** ** Combinators *)
Lemma ffmap_inv {A} (f : A -> fout) (m : FPV A) v r v' t : ffmap f m v r v' t ->
  (exists a t1, m v (Ok a) v' t1 /\ r = Ok (f a) /\ t = t1 ++ []) \/ (exists e, m v (Err e) v' t /\ r = Err e).
Proof using.
  clear. intros (r1 & v1 & t1 & H & K). destruct r1 as [a|e].
  - destruct K as (t2 & K & ->). injection K as <- <- <-. left. eauto.
  - destruct K as (-> & -> & ->). right. eauto.
Qed.
Lemma ffmap_cases {A} (f : A -> fout) (mF : FPV A) (m : PV A) v r v' t (B : vol -> list snap -> Prop) :
  (forall r v' t, mF v r v' t -> m v = (r, v', t) \/ r = Err EIO /\ B v' t) ->
  ffmap f mF v r v' t -> fmap_ f m v = (r, v', t) \/ r = Err EIO /\ B v' t.
Proof using.
  clear. intros H K. unfold fmap_, pbind. destruct (ffmap_inv f mF v r v' t K) as [(a & t1 & K1 & -> & ->)|(e & K1 & ->)].
  - destruct (H _ _ _ K1) as [->|(E & _)]; [left; reflexivity|discriminate E].
  - destruct (H _ _ _ K1) as [->|(E & X)]; [left; reflexivity|right]. injection E as ->. auto.
Qed.
Lemma fguard_ro {A} (f : A -> fout) (m : FPV A) v r v' t : v_mnt v = true -> s_ro (v_s v) = true -> ffmap f (fguard m) v r v' t ->
  r = Err EROFS /\ v' = v /\ t = [].
Proof using.
  clear. intros MN RO (r1 & v1 & t1 & H & K). unfold fguard in H. rewrite MN, RO in *. cbn [negb] in *.
  destruct H as (-> & -> & ->), K as (-> & -> & ->). auto.
Qed.
Lemma fguard_umt {A} (f : A -> fout) (m : FPV A) m' v r v' t : v_mnt v = false -> ffmap f (fguard m) v r v' t ->
  fmap_ f (guard _ m') v = (r, v', t).
Proof using.
  clear. intros MN (r1 & v1 & t1 & H & K). unfold fmap_, pbind, guard. unfold fguard in H. rewrite MN in *. cbn [negb] in *.
  destruct H as (-> & -> & ->), K as (-> & -> & ->). auto.
Qed.
Lemma fmounted_umt {A} (f : A -> fout) (m : MF st A) m' v r v' t : v_mnt v = false -> ffmap f (mounted m) v r v' t ->
  fmap_ f (FsVolume.mounted m') v = (r, v', t).
Proof using.
  clear. intros MN (r1 & v1 & t1 & H & K). unfold fmap_, pbind, FsVolume.mounted. unfold mounted in H. rewrite MN in *. cbn [negb] in *.
  destruct H as (-> & -> & ->), K as (-> & -> & ->). auto.
Qed.
Lemma c_SizeGet i : fs_ std (FseVol.CoreFileSizeGet g i) (CoreFileSizeGet g i). Proof using. clear. unfold CoreFileSizeGet, FseVol.CoreFileSizeGet. pose proof (f_Mount g). fall. Qed.
Lemma d_SizeGet i : rdo (fun s : st => s) (CoreFileSizeGet g i). Proof using. clear. unfold CoreFileSizeGet. pose proof (d_Mount g). dall. Qed.

(** ** Calls that write *)
Lemma fmod_flt {A} (m : M st A) F c f o1 o2 v W C mask r v' t :
  OPS False m (fun x F F' => fmod_ok MX c (f x) (ffs_of F) (ffs_of F')) (fun F e => fmod_err MX c (ffs_of F) e) -> fltw std m F ->
  fmodifies c = true -> FSim v (FM W C mask) -> room v o1 o2 ->
  ffmap f (autocommit atom (fevbit c) F o1 o2) v r v' t ->
  fmap_ f (FsVolume.autocommit (fevbit c) m o1 o2) v = (r, v', t) \/
  r = Err EIO /\ XSim v' (FDown (fpower_loss (FM W C mask) c) mask) /\ TRx (fpower_loss (FM W C mask) c) t.
Proof.
  intros HO HF MC (F0 & G & HV & ZF & ZG & RO & MK) RM. unfold room in RM.
  apply (ffmap_cases f (autocommit atom (fevbit c) F o1 o2) (FsVolume.autocommit (fevbit c) m o1 o2) v r v' t
     (fun v' t => XSim v' (FDown (fpower_loss (FM W C mask) c) mask) /\ TRx (fpower_loss (FM W C mask) c) t)).
  intros r1 v1 t1 H. subst mask.
  set (P0 := fun F : fs => exists X, Z F X /\ fpower_loss (FM W C (v_mask v)) c X).
  assert (CV : cover P0 (fpower_loss (FM W C (v_mask v)) c)) by (intros X HX; exact HX).
  assert (NS : forall a : A, ~ std (Ok a)) by (intros a E; discriminate E).
  destruct (autocommit_flt good g OK atom std m F _ _ (fevbit c) o1 o2 v F0 G P0 r1 v1 t1 HO HF NS eq_refl HV RO ltac:(lia)) as [E|((e & -> & BD) & D & T)]; auto.
  - exists C. split; auto. apply F_crash. auto.
  - intros VF. exists W. split; auto. apply F_crash. right. left. split; auto. left. right. auto.
  - intros a W' HE HR. exists (ffs_of W'). split; [apply Z_refl|]. apply F_crash. right. left. split; auto. right. split; auto. exists (f a). eapply fmod_okZ; eauto.
  - right. injection BD as ->. split; auto. split; [exists P0; auto|eapply TR_TRx; eauto].
Qed.

(** ** Calls that read *)
Lemma VI_ro v W C b : VI v W C -> VI (vset_s (set_ro b (v_s v)) v) W C.
Proof. intros (C0 & D0 & [X1 X2 X3 X4 X5 X6 X7 X8 X9 X10]). exists C0, D0. constructor; auto. Qed.
Lemma fread_flt {A} (m : M st A) F c f v r v' t W C mask : fs_ std m F -> rdo (fun s : st => s) F -> rs m -> 
  (forall C0 D0 F s, FSV g C0 D0 F s -> exists r, m s = (r, s) /\ (good F -> fread_ok c (ffs_of F) (match r with Ok a => Ok (f a) | Err e => Err e end))) ->
  XSim v (FRo W C mask) \/ FSim v (FM W C mask) -> ffmap f (mounted F) v r v' t ->
  (fmap_ f (FsVolume.mounted m) v = (r, v', t) /\ v' = v /\ fread_ok c W r \/ r = Err EIO /\ XSim v' (FRo W C mask)) /\ TRx (eq C) t.
Proof.
  intros (_ & _ & HF) RD HR H HS HH.
  assert (HS' : exists F G, VI v F G /\ Z F W /\ Z G C /\ v_mask v = mask) by (destruct HS as [(F0 & G & A1 & A2 & A3 & A4 & A5)|(F0 & G & A1 & A2 & A3 & A4 & A5)]; exists F0, G; auto).
  clear HS. destruct HS' as (F0 & G & HV & ZF & ZG & MK).
  assert (MN : v_mnt v = true) by (destruct HV as (? & ? & X); apply X).
  assert (GF : good F0) by (destruct HV as (? & ? & X); exact (x_WF _ _ _ _ _ _ _ _ X)).
  assert (T0 : TRx (eq C) [mayhap (s_wr (v_s v)) (v_d v)]).
  { apply (TR_TRx (eq G)); [intros X <-; eauto|]. eapply (back_TR good g OK atom v F0 G); eauto. }
  destruct (read_run good g OK atom m (fun r F => good F -> fread_ok c (ffs_of F) (match r with Ok a => Ok (f a) | Err e => Err e end)) v F0 G HR H HV) as (r0 & R0 & Q).
  specialize (Q GF). apply (fread_okZ _ _ _ _ ZF) in Q.
  assert (CS' : fmap_ f (FsVolume.mounted m) v = (r, v', t) \/ r = Err EIO /\ XSim v' (FRo W C mask) /\ TRx (eq C) t).
  { apply (ffmap_cases f (mounted F) (FsVolume.mounted m) v r v' t (fun v' t => XSim v' (FRo W C mask) /\ TRx (eq C) t)); auto.
    intros r1 v1 t1. unfold mounted, FsVolume.mounted. rewrite MN. cbn [negb].
    intros (s' & R & -> & ->). destruct (HF _ _ _ R) as (_ & [E|(BD & Z1 & _)]); [left; unfold core; now rewrite E|]. right.
    unfold std in BD. split; auto.
    assert (ES : s' = set_ro true (v_s v)). { destruct (RD _ _ _ R) as [E|E]; auto. rewrite E in Z1 |- *. symmetry. now apply set_ro_id. }
    subst s'. split; [|exact T0]. exists F0, G. split; [apply VI_ro; auto|]. split; [auto|]. split; [auto|]. split; [reflexivity|exact MK]. }
  destruct CS' as [E|(-> & S & T)]; [|auto]. pose proof E as E'. unfold fmap_, pbind in E'. rewrite R0 in E'.
  destruct r0 as [a|e]; injection E' as <- <- <-; (split; [left; auto|rewrite ?app_nil_r; exact T0]).
Qed.

(** ** Calls on a mounted volume *)
Definition ffail_to (W C : ffs) (mask : N) (c : fcall) (r : res fout) (x : fxst) : Prop :=
  fwrites c /\ r = Err EIO /\ x = FDown (fpower_loss (FM W C mask) c) mask \/
  freads c = true /\ r = Err EIO /\ x = FRo W C mask.
Lemma ffail_step W C mask c r x : ffail_to W C mask c r x -> fxstep (FUp (FM W C mask)) (FECall c r) x.
Proof using. intros [(HC & -> & ->)|(RC & -> & ->)]; [apply FX_fail; auto|apply FX_read; auto]. Qed.
Lemma fup_mounted c o1 o2 v W C mask r v' t : room v o1 o2 -> FSim v (FM W C mask) -> fexecF c o1 o2 v r v' t ->
  fexec c o1 o2 v = (r, v', t) \/
  exists x, ffail_to W C mask c r x /\ XSim v' x /\ TRx (fpower_loss (FM W C mask) c) t.
Proof.
  intros RM HS H. pose proof HS as (F & G & HV & ZF & ZG & RO & MK). assert (MN : v_mnt v = true) by (destruct HV as (? & ? & X); apply X).
  assert (PC : fpower_loss (FM W C mask) c C) by (apply F_crash; auto).
  assert (DWN : fwrites c -> forall (E : Prop), E \/ r = Err EIO /\ XSim v' (FDown (fpower_loss (FM W C mask) c) mask) /\ TRx (fpower_loss (FM W C mask) c) t ->
     E \/ exists x, ffail_to W C mask c r x /\ XSim v' x /\ TRx (fpower_loss (FM W C mask) c) t).
  { intros HC E [K|(-> & D & T)]; auto. right. eexists. split; [left; split; [exact HC|split; [reflexivity|reflexivity]]|auto]. }
  assert (RDX : forall A (m : M st A) F f, fs_ std m F -> rdo (fun s : st => s) F -> rs m -> freads c = true ->
    (forall C0 D0 F s, FSV g C0 D0 F s -> exists r, m s = (r, s) /\ (good F -> fread_ok c (ffs_of F) (match r with Ok a => Ok (f a) | Err e => Err e end))) ->
    ffmap f (mounted F) v r v' t -> fmap_ f (FsVolume.mounted m) v = (r, v', t) \/
    exists x, ffail_to W C mask c r x /\ XSim v' x /\ TRx (fpower_loss (FM W C mask) c) t).
  { intros A m F1 f HF RD HR RC HRd HH. destruct (fread_flt m F1 c f v r v' t W C mask HF RD HR HRd (or_intror HS) HH) as ([(E & _)|(-> & S)] & T); auto.
    right. exists (FRo W C mask). split; [right; auto|]. split; auto. intros sn d d' IN HD LO. destruct (T sn d d' IN HD LO) as (F2 & X & A1 & A2 & <-). eauto. }
  assert (TRN : forall o r1 v1 t1, (forall F0, F0 = G \/ F0 = F -> exists X, Z F0 X /\ fpower_loss (FM W C mask) c X) -> fst o <= fst o1 ->
     FltVolume.RedVolTransact atom o v r1 v1 t1 ->
     FsVolume.RedVolTransact o v = (r1, v1, t1) \/ r1 = Err EIO /\ XSim v1 (FDown (fpower_loss (FM W C mask) c) mask) /\ TRx (fpower_loss (FM W C mask) c) t1).
  { intros o r1 v1 t1 CV LE HT.
    destruct (transact_flt good g OK atom v F G o (fun F0 => F0 = G \/ F0 = F) r1 v1 t1 HV) as [E|(-> & D & T)]; auto.
    - unfold room in RM. lia.
    - right. split; auto. split; [|eapply TR_TRx; eauto; exact CV]. rewrite MK in D. eexists. split; [exact D|exact CV]. }
  destruct c; cbn [FltFse.fexecF FseVol.fexec] in H |- *.
  - left. rewrite MN in *. cbn [negb] in *. exact H.
  - rewrite MN in *. apply DWN; [right; auto|].
    apply (ffmap_cases (fun _ => FUnit) (FltVolume.RedCoreVolUnmount atom o1) (FsVolume.RedCoreVolUnmount o1) v r v' t
        (fun v' t => XSim v' (FDown (fpower_loss (FM W C mask) FUnmount) mask) /\ TRx (fpower_loss (FM W C mask) FUnmount) t)); auto.
    intros r1 v1 t1. unfold FltVolume.RedCoreVolUnmount, FsVolume.RedCoreVolUnmount, pbind. rewrite RO, MK. cbn [negb andb].
    intros (r2 & v2 & t2 & HT & K). destruct (has mask T_UMOUNT) eqn:HM.
    + destruct (TRN o1 r2 v2 t2) as [E|(-> & D & T)]; auto; try lia.
      * intros F0 [->| ->]; [exists C; auto|exists W]. split; auto. apply F_crash. auto 8.
      * left. rewrite E. destruct r2 as [[]|]; [destruct K as (t3 & K & ->); injection K as <- <- <-; reflexivity|destruct K as (-> & -> & ->); reflexivity].
      * right. destruct K as (-> & -> & ->). auto.
    + left. injection HT as <- <- <-. destruct K as (t3 & K & ->). injection K as <- <- <-. reflexivity.
  - left. destruct (ffmap_inv _ _ _ _ _ _ H) as [(a & t1 & K & _)|(e & K & ->)]; unfold FltVolume.RedVolFormatWith in K; rewrite MN in K; destruct K as (K & -> & ->); [discriminate K|].
    injection K as ->. unfold fmap_, pbind, FsVolume.RedVolFormatWith. rewrite MN. reflexivity.
  - destruct (N.ltb_spec INT32_MAX len) as [L|L]; [left; exact H|].
    apply (RDX _ _ _ (fun x => FData (fst x) (snd x)) (c_FileRead g i off len) (d_FileRead g i off len) (r_CoreFileRead g i off len)); auto.
    intros C0 D0 F0 s HF. destruct (fread_file g OK i off len C0 D0 F0 s HF) as (r1 & R & X). eauto.
  - destruct (N.ltb_spec INT32_MAX len) as [L|L]; [left; exact H|]. apply DWN; [left; auto|].
    apply (fmod_flt _ _ (FWrite i off len src) FNum o1 o2 v W C mask r v' t (fops_write g OK i off len src L) (c_Write g i off len src)); auto.
  - apply DWN; [left; auto|].
    apply (fmod_flt _ _ (FTruncate i size) (fun _ => FUnit) o1 o2 v W C mask r v' t (fops_truncate g OK i size) (c_Truncate g i size)); auto.
  - apply (RDX _ _ _ FNum (c_SizeGet i) (d_SizeGet i) (r_SizeGet g i)); auto.
    intros C0 D0 F0 s HF. destruct (fsize_get g OK i C0 D0 F0 s HF) as (r1 & R & X). eauto.
  - left; auto.
  - left; auto.
  - apply DWN; [right; auto|].
    apply (ffmap_cases (fun _ => FUnit) (FltVolume.RedCoreVolTransact atom o1) (FsVolume.RedCoreVolTransact o1) v r v' t
        (fun v' t => XSim v' (FDown (fpower_loss (FM W C mask) FTransact) mask) /\ TRx (fpower_loss (FM W C mask) FTransact) t)); auto.
    intros r1 v1 t1. unfold FltVolume.RedCoreVolTransact, FsVolume.RedCoreVolTransact, fguard, guard. rewrite MN, RO. cbn [negb]. intros HT.
    apply TRN; auto; try lia. intros F0 [->| ->]; [exists C; auto|exists W]. split; auto. apply F_crash. auto 8.
  - apply DWN; [right; auto|].
    apply (ffmap_cases (fun _ => FUnit) (FltVolume.RedCoreVolRollback atom) (FsVolume.RedCoreVolRollback atom) v r v' t
        (fun v' t => XSim v' (FDown (fpower_loss (FM W C mask) FRollback) mask) /\ TRx (fpower_loss (FM W C mask) FRollback) t)); auto.
    intros r1 v1 t1. unfold FltVolume.RedCoreVolRollback, FsVolume.RedCoreVolRollback, fguard, guard. rewrite MN, RO. cbn [negb].
    intros [E|(_ & -> & -> & s & cr & sq & RS & RR & WR & ->)]; auto. right. split; [auto|]. split; [|apply TRx_nil].
    exists (eq G). split; [|intros X <-; eauto].
    split; [exact MN|]. split; [exact RR|]. split; [cbn; rewrite RS; eapply (VI_res good g OK); eauto|]. split; [exact MK|]. cbn [v_s v_d].
    destruct HV as (C0 & D0 & X). eapply (VIx_DV good g OK atom _ C0 D0 v F G); eauto. intros b Hb. rewrite WR in Hb. discriminate.
Qed.

(** ** ... on an unmounted volume *)
Lemma fumt_cases c o1 o2 v r v' t : v_mnt v = false -> fexecF c o1 o2 v r v' t -> c <> FFormat ->
  fexec c o1 o2 v = (r, v', t) \/
  c = FMount /\ r = Err EIO /\ t = [] /\ v_mnt v' = false /\ s_res (v_s v') = s_res (v_s v) /\ v_d v' = v_d v /\ v_mask v' = v_mask v.
Proof using.
  clear. intros MN H NF. destruct c; cbn [FltFse.fexecF FseVol.fexec] in H |- *; auto; try congruence.
  - rewrite MN in *. cbn [negb] in *. destruct (ffmap_inv _ _ _ _ _ _ H) as [(a & t1 & K & -> & ->)|(e & K & ->)].
    + destruct K as [K|(_ & K & _)]; [|discriminate K]. left. unfold fmap_, pbind. rewrite K. reflexivity.
    + destruct K as [K|(_ & K & -> & s & cr & sq & RS & ->)].
      * left. unfold fmap_, pbind. rewrite K. reflexivity.
      * right. injection K as ->. cbn. auto 10.
  - rewrite MN in *. auto.
  - destruct (INT32_MAX <? len); auto. left. eapply fmounted_umt; eauto.
  - destruct (INT32_MAX <? len); auto. left. eapply fguard_umt; eauto.
  - left. eapply fguard_umt; eauto.
  - left. eapply fmounted_umt; eauto.
  - left. eapply fguard_umt; eauto.
  - left. eapply fguard_umt; eauto.
Qed.

Lemma fisformat c : c = FFormat \/ c <> FFormat.
Proof using. clear. destruct c; auto; right; discriminate. Qed.
(** *** Formatting *)
Lemma mono {A} (bad : res A -> Prop) m (F : MF st A) : fs_ bad m F -> forall s r s', F s r s' -> (s_ro s = true -> s_ro s' = true) /\ s_res s' = s_res s.
Proof using.
  clear. intros (W & _ & H) s r s' R. destruct (H s r s' R) as (E & X). split; auto. intros RO. destruct X as [X|(_ & X & _)]; [|exact X].
  destruct (W s) as (_ & _ & _ & K & _). rewrite X in K. auto.
Qed.
Lemma f_FseCreate i : fs_ std (FseVol.FseInodeCreate g i) (FltFse.FseInodeCreate g i).
Proof using. clear. pose proof (f_IsFree g). pose proof (f_Wr g). pose proof (f_BitSet g). unfold FltFse.FseInodeCreate, FseVol.FseInodeCreate. cbv zeta. fall. Qed.
Lemma f_FseOne i : fs_ std (FsState.bind (FseVol.FseInodeCreate g i) (fun _ => FsState.ret tt)) (FltMonad.bind (FltFse.FseInodeCreate g i) (fun _ => FltMonad.ret tt)).
Proof using. clear. apply (flt_bind _ std); [reflexivity|apply f_FseCreate|intros c; apply flt_ret]. Qed.
Lemma loop_mono n : forall i r s r' s', FltFse.FseMakeLoop g n i r s r' s' -> (s_ro s = true -> s_ro s' = true) /\ s_res s' = s_res s.
Proof using.
  clear. induction n as [|n IH]; intros i r s r' s' H; cbn [FltFse.FseMakeLoop] in H.
  - unfold lift_res, pure, FsState.lift_res in H. destruct r; injection H as _ <-; auto.
  - destruct H as (r1 & s1 & (r2 & H1 & ->) & H2). destruct (mono _ _ _ (f_FseOne i) _ _ _ H1) as (A1 & A2). destruct (IH _ _ _ _ _ H2) as (B1 & B2). split; [auto|congruence].
Qed.
Definition anyr : res unit -> Prop := fun _ => True.
Lemma loop_incl n : forall i r x, exists r1 x1, FltFse.FseMakeLoop g n i r x r1 x1 /\ FseVol.FseMakeLoop g n i r x = (r1, x1).
Proof using.
  clear. induction n as [|n IH]; intros i r x; cbn [FltFse.FseMakeLoop FseVol.FseMakeLoop].
  - unfold lift_res, pure. destruct (FsState.lift_res r x) as [r1 x1]. eauto.
  - unfold FsState.bind at 1, FsState.attempt. destruct (f_FseOne i) as (_ & HI & _). specialize (HI x). destruct (FsState.bind _ _ x) as [r1 x1]. cbn [fst snd] in HI.
    destruct (IH (i + 1) r1 x1) as (r2 & x2 & H2 & E2). exists r2, x2. split; [|exact E2]. exists (Ok r1), x1. split; [exists r1; auto|]. exact H2.
Qed.
Lemma loop_runs n : forall i r x r1 x1, FltFse.FseMakeLoop g n i r x r1 x1 -> FseVol.FseMakeLoop g n i r x = (r1, x1) \/ anyr r1 /\ s_ro x1 = true.
Proof using.
  clear. induction n as [|n IH]; intros i r x r1 x1 H; cbn [FltFse.FseMakeLoop FseVol.FseMakeLoop] in H |- *.
  - left. unfold lift_res, pure in H. congruence.
  - destruct H as (r2 & s1 & (r3 & H1 & ->) & H2). destruct (f_FseOne i) as (_ & _ & HF). destruct (HF _ _ _ H1) as (_ & [E|(_ & RO & _)]).
    + unfold FsState.bind at 1, FsState.attempt. rewrite E. apply IH. exact H2.
    + right. split; [exact Logic.I|]. apply (loop_mono n _ _ _ _ _ H2). exact RO.
Qed.
Lemma loop_fltf n i r : fltf anyr (FseVol.FseMakeLoop g n i r) (FltFse.FseMakeLoop g n i r).
Proof using OK.
  clear - OK. split; [apply (w_FseLoop g OK)|]. split.
  - intros x. destruct (loop_incl n i r x) as (r1 & x1 & H & E). rewrite E. exact H.
  - intros x r1 x1 H. split; [apply loop_mono in H; intros E; destruct H; congruence|]. apply loop_runs. exact H.
Qed.
Lemma umt_fformat o1 o2 v (P0 : option fs -> Prop) P mask r v' t : v_mnt v = false -> s_res (v_s v) = false -> s_afree (v_s v) = 0 -> DVo P0 (v_d v) -> covero P0 P -> v_mask v = mask -> room v o1 o2 ->
  fexecF FFormat o1 o2 v r v' t ->
  (fexec FFormat o1 o2 v = (r, v', t) /\ r = Ok FUnit /\ FSim v' (FU (Some (Fnew (ICNT g))) mask) \/ (exists e, r = Err e) /\ XSim v' (FOff (freformat (ICNT g) P) mask)) /\
  forall sn d d', In sn t -> sn d -> lose d d' -> exists X Y, freformat (ICNT g) P X /\ MSo d' Y /\ Zo Y X.
Proof.
  intros MN RS AF HD CV MK RM H. cbn [FltFse.fexecF FseVol.fexec] in H |- *. unfold room in RM.
  assert (ZN : Zo (Some (FnewN (ICNT g))) (Some (Fnew (ICNT g)))) by (intros i; apply FnewN_of).
  assert (CR0 : covero (fun Y => P0 Y \/ Y = None \/ Y = Some (FnewN (ICNT g))) (freformat (ICNT g) P)).
  { intros Y [HY|[->| ->]].
    - destruct (CV Y HY) as (X & A & B). exists X. split; auto. left. auto.
    - exists None. split; [exact Logic.I|]. right. auto.
    - eexists. split; [exact ZN|]. right. auto. }
  assert (TT : TRo (fun Y => P0 Y \/ Y = None \/ Y = Some (FnewN (ICNT g))) t -> forall sn d d', In sn t -> sn d -> lose d d' -> exists X Y, freformat (ICNT g) P X /\ MSo d' Y /\ Zo Y X).
  { intros T sn d d' IN Hd LO. unfold FsFormat.TRo in T. rewrite Forall_forall in T. destruct (T sn IN d Hd d' LO) as (Y & PY & MY). destruct (CR0 Y PY) as (X & A & B). eauto. }
  pose proof (fun r1 v1 t1 => format_flt good g OK atom anyr (fun _ => True) _ _ (FnewN (ICNT g)) v P0 o1 o2 r1 v1 t1 (loop_fltf _ _ _)
    (fun _ _ => Logic.I) Logic.I (FnewN_good g) (FseMake_run g OK) MN RS AF HD RM) as FF.
  destruct (format_genP good g OK atom (FseVol.FseMake g) (FnewN (ICNT g)) v P0 o1 o2 (w_FseLoop g OK _ _ _) (FnewN_good g) (FseMake_run g OK) MN RS AF (proj1 HD) RM) as (w & tw & E1 & B1 & B2 & B3 & B4 & _ & B6).
  assert (Z0 : fmap_ (fun _ => FUnit) (FsVolume.RedVolFormatWith g (FseVol.FseMake g) o1 o2) v = (r, v', t) \/ (exists e, r = Err e) /\ FB good g atom (v_mask v) (fun Y => P0 Y \/ Y = None \/ Y = Some (FnewN (ICNT g))) v' t).
  { change (FseVol.FseMakeLoop g (N.to_nat (ICNT g)) 2 (Ok tt)) with (FseVol.FseMake g) in FF. unfold fmap_, pbind. destruct (ffmap_inv _ _ _ _ _ _ H) as [(a & t1 & K & -> & ->)|(e & K & ->)].
    - destruct (FF _ _ _ K) as [->|((e & E & _) & _)]; [left; reflexivity|discriminate E].
    - destruct (FF _ _ _ K) as [->|(_ & X)]; [left; reflexivity|right]. eauto. }
  destruct Z0 as [E|((e & ->) & F1 & F2 & F3 & F4 & F5)].
  - split; [left; split; [exact E|]|].
    + revert E. unfold fmap_, pbind. rewrite E1. intros E. injection E as <- <- <-. split; [auto|]. eexists. split; [exact B1|]. split; [exact B2|]. split; [exact B3|]. split; [exact ZN|congruence].
    + revert E. unfold fmap_, pbind. rewrite E1. intros E. injection E as <- <- <-. apply TT. rewrite app_nil_r. exact B6.
  - split; [right; split; [eauto|]|apply TT; exact F5]. eexists. split; [exact CR0|]. split; [auto|]. split; [auto|]. split; [congruence|exact F4].
Qed.

(** ** Read-only volumes *)
Notation roresult := (ro_result TRANSACT_MASK).
(** What every call does on a volume that a failure has made read-only. *)
Lemma fro_call c o1 o2 v r v' t : v_mnt v = true -> s_ro (v_s v) = true -> fexecF c o1 o2 v r v' t ->
  roresult (v_mask v) c r /\ v' = v /\ t = [] \/
  c = FUnmount /\ r = Ok FUnit /\ v' = vset_mnt false v /\ t = [] \/
  freads c = true /\
   (r = Err EINVAL /\ v' = v /\ t = [] /\ (forall W, fread_ok c W r) \/
    (exists i off len, c = FRead i off len /\ len <= INT32_MAX /\ ffmap (fun x => FData (fst x) (snd x)) (mounted (CoreFileRead g i off len)) v r v' t) \/
    (exists i, c = FSizeGet i /\ ffmap FNum (mounted (CoreFileSizeGet g i)) v r v' t)).
Proof using.
  clear. intros MN RO H. destruct c; cbn [FltFse.fexecF] in H.
  - rewrite MN in H. cbn [negb] in H. injection H as <- <- <-. left. cbn. auto.
  - rewrite MN in H. right. left. destruct (ffmap_inv _ _ _ _ _ _ H) as [(a & t1 & K & -> & ->)|(e1 & K & ->)]; destruct K as (r2 & v2 & t2 & HT & K); rewrite RO in HT; cbn [negb andb] in HT; injection HT as <- <- <-;
          destruct K as (t3 & K & E1); [|discriminate K]. injection K as <- <- <-. rewrite E1. auto.
  - destruct (ffmap_inv _ _ _ _ _ _ H) as [(a & t1 & K & _)|(e & K & ->)]; unfold FltVolume.RedVolFormatWith in K; rewrite MN in K; destruct K as (K & -> & ->); [discriminate K|].
    injection K as ->. left. cbn. auto.
  - right. right. split; auto. destruct (N.ltb_spec INT32_MAX len) as [L|L].
    + injection H as <- <- <-. left. split; [auto|]. split; [auto|]. split; [auto|]. intros W. left. auto.
    + right. left. eauto 6.
  - left. cbn [ro_result]. destruct (INT32_MAX <? len).
    + injection H as <- <- <-. auto.
    + apply fguard_ro in H; auto.
  - left. apply fguard_ro in H; auto.
  - right. right. split; auto. right. right. eauto.
  - left. unfold fpure, fmap_, pbind, RedCoreTransMaskSet in H. rewrite MN, RO in H. cbn [negb orb] in H. cbn [ro_result].
    destruct (N.land m TRANSACT_MASK =? m); cbn [negb] in H; injection H as <- <- <-; auto.
  - left. unfold fpure, fmap_, pbind, RedCoreTransMaskGet, pret in H. rewrite MN in H. cbn [negb] in H. injection H as <- <- <-. cbn. auto.
  - left. apply fguard_ro in H; auto.
  - left. apply fguard_ro in H; auto.
Qed.
Lemma fboot d F X : CS d F -> Z F X -> XSim (boot d) (FUp (FU (Some X) TRANSACT_DEFAULT)).
Proof. intros H Z1. exact (fboot_sim g OK atom MOUNT_MASK TRANSACT_MASK TRANSACT_DEFAULT d (Some F) (Some X) H Z1). Qed.

Lemma ro_sim c o1 o2 v W C mask r v' t : XSim v (FRo W C mask) -> fexecF c o1 o2 v r v' t ->
  (exists x, fxstep (FRo W C mask) (FECall c r) x /\ XSim v' x) /\ TRx (eq C) t.
Proof.
  intros HS EX. pose proof HS as (F & G & HV & ZF & ZG & RO & MK). assert (MN : v_mnt v = true) by (destruct HV as (? & ? & X); apply X).
  destruct (fro_call c o1 o2 v r v' t MN RO EX) as [(RR & -> & ->)|[(-> & -> & -> & ->)|(RC & [(-> & -> & -> & RR)|K])]].
  - split; [|apply TRx_nil]. exists (FRo W C mask). split; auto. apply FR_ro. now rewrite <- MK.
  - split; [|apply TRx_nil]. exists (FUp (FU (Some C) mask)). split; [apply FR_umount|]. exists (Some G). cbn [v_mnt vset_mnt v_s v_d v_mask].
    split; [reflexivity|]. split; [eapply (VI_res good g OK); eauto|]. split; [|auto]. cbn [FsFormat.MS]. eapply (back_CS good g OK); eauto. apply mayhap_refl.
  - split; [|apply TRx_nil]. exists (FRo W C mask). split; auto. apply FR_read; auto.
  - assert (Z' : (fread_ok c W r /\ v' = v \/ r = Err EIO /\ XSim v' (FRo W C mask)) /\ TRx (eq C) t).
    { destruct K as [(i & off & len & -> & L & K)|(i & -> & K)].
      - destruct (fread_flt _ _ (FRead i off len) (fun x => FData (fst x) (snd x)) v r v' t W C mask (c_FileRead g i off len) (d_FileRead g i off len) (r_CoreFileRead g i off len)) as ([(_ & A & B)|A] & T); eauto.
        intros C0 D0 F0 s HF. destruct (fread_file g OK i off len C0 D0 F0 s HF) as (r1 & R & X). eauto.
      - destruct (fread_flt _ _ (FSizeGet i) FNum v r v' t W C mask (c_SizeGet i) (d_SizeGet i) (r_SizeGet g i)) as ([(_ & A & B)|A] & T); eauto.
        intros C0 D0 F0 s HF. destruct (fsize_get g OK i C0 D0 F0 s HF) as (r1 & R & X). eauto. }
    destruct Z' as (Z' & T). split; auto. exists (FRo W C mask). destruct Z' as [(A & ->)|(A & B)]; (split; [apply FR_read; auto|auto]).
Qed.
Lemma down_sim c o1 o2 v P mask r v' t : XSim v (FDown P mask) -> fexecF c o1 o2 v r v' t ->
  (exists x, fxstep (FDown P mask) (FECall c r) x /\ XSim v' x) /\ TRx P t.
Proof.
  intros HS EX. pose proof HS as (P0 & (MN & RO & RS & MK & HD0) & CV).
  destruct (fro_call c o1 o2 v r v' t MN RO EX) as [(RR & -> & ->)|[(-> & -> & -> & ->)|(RC & [(-> & -> & -> & RR)|K])]].
  - split; [|apply TRx_nil]. exists (FDown P mask). split; auto. apply FD_ro. now rewrite <- MK.
  - split; [|apply TRx_nil]. eexists. split; [apply FD_umount|]. exists (lift_ P0). split; [|split; [reflexivity|]; split; [exact RS|]; split; [exact MK|]; apply (DV_DVo good g atom P0 _ _ HD0)].
    intros Y (F & PF & ->). destruct (CV F PF) as (X & A & B). exists (Some X). split; [exact A|]. exists X. auto.
  - split; [|apply TRx_nil]. exists (FDown P mask). split; auto. apply FD_read; auto.
  - assert (RD : forall A f (F : MF st A), rdo (fun s : st => s) F -> ffmap f (mounted F) v r v' t -> v' = v /\ TRx P t).
    { intros A f F HR HH. assert (Z' : exists r1, mounted F v r1 v' t).
      { destruct (ffmap_inv _ _ _ _ _ _ HH) as [(x & t1 & K' & _ & ->)|(x & K' & _)]; [exists (Ok x); now rewrite app_nil_r|exists (Err x); auto]. }
      destruct Z' as (r1 & K'). unfold mounted in K'. rewrite MN in K'. cbn [negb] in K'. destruct K' as (s' & K' & -> & ->).
      assert (ES : s' = v_s v). { destruct (HR _ _ _ K') as [E|E]; auto. rewrite E. now apply set_ro_id. }
      subst s'. split; [destruct v; reflexivity|]. apply (TR_TRx P0); auto. repeat constructor. intros d Hd d' L. destruct (HD0 d Hd) as (A' & _). exact (A' d' L). }
    assert (Z' : v' = v /\ TRx P t).
    { destruct K as [(i & off & len & -> & L & K)|(i & -> & K)]; (eapply RD; [|exact K]); [apply d_FileRead|apply d_SizeGet]. }
    destruct Z' as (-> & T). split; auto. exists (FDown P mask). split; auto. apply FD_read; auto.
Qed.
Lemma off_sim c o1 o2 v P mask r v' t : XSim v (FOff P mask) -> fallowed v c -> room v o1 o2 -> fsettled v c -> fexecF c o1 o2 v r v' t ->
  (exists x, fxstep (FOff P mask) (FECall c r) x /\ XSim v' x) /\
  forall sn d d', In sn t -> sn d -> lose d d' -> exists X Y, fxstep (FOff P mask) (FECrash (Some c)) (FUp (FU X TRANSACT_DEFAULT)) /\ MSo d' Y /\ Zo Y X.
Proof.
  intros HS AL RM SE EX. pose proof HS as (P0 & CV & MN & RS & MK & HD0). destruct (fisformat c) as [->|NF].
  { destruct AL as [AL|AL]; [congruence|]. destruct (umt_fformat o1 o2 v P0 P mask r v' t MN RS AL HD0 CV MK RM EX) as (F & T). split.
    - destruct F as [(_ & -> & S)|((e & ->) & F)]; [eexists; split; [apply FO_format|exact S]|eexists; split; [apply FO_formatio|exact F]].
    - intros sn d d' IN HD LO. destruct (T sn d d' IN HD LO) as (X & Y & A & B). exists X, Y. split; auto. apply FO_crashfmt. auto. }
  assert (STB : stable (v_d v) -> exists F X, Zo F X /\ P X /\ P0 F /\ MSo (v_d v) F).
  { intros ST. destruct HD0 as (_ & K). destruct (K _ (part_refl _) ST) as (F & PF & CF). destruct (CV F PF) as (X & A & B). eauto 8. }
  destruct (fumt_cases c o1 o2 v r v' t MN EX NF) as [E|(-> & -> & -> & A1 & A2 & A3 & A4)].
  2:{ split; [|intros sn d d' []]. exists (FOff P mask). split; [apply FO_mountio|]. exists P0. rewrite A1, A2, A3, A4. auto. }
  assert (CL : (fmodifies c = true \/ freads c = true \/ c = FTransact \/ c = FRollback \/ (exists m, c = FMaskSet m) \/ c = FMaskGet) \/ c = FUnmount \/ c = FMount).
  { destruct c; try congruence; first [right; right; reflexivity|right; left; reflexivity|left; left; reflexivity|left; right; left; reflexivity|left; do 2 right; left; reflexivity|
      left; do 3 right; left; reflexivity|left; do 4 right; left; eexists; reflexivity|left; do 5 right; reflexivity]. }
  destruct CL as [HC|[->| ->]].
  - assert (Q : (r, v', t) = (Err EINVAL, v, [])).
    { rewrite <- E. clear - MN HC. destruct c; cbn [FseVol.fexec]; try (exfalso; cbn in HC; repeat (destruct HC as [HC|HC]; try discriminate); destruct HC as (m & HC); discriminate);
        try destruct (INT32_MAX <? len);
        unfold fmap_, pbind, RedCoreFileRead, FsVolume.RedCoreFileWrite, FsVolume.RedCoreFileTruncate, FsVolume.RedCoreVolTransact, FsVolume.RedCoreVolRollback, FsVolume.autocommit, guard, FsVolume.mounted, RedCoreTransMaskSet, RedCoreTransMaskGet, pfail; try rewrite MN; reflexivity. }
    injection Q as -> -> ->. split; [|intros sn d d' []]. exists (FOff P mask). split; auto. apply FO_inv; auto.
  - cbn [FseVol.fexec] in E. rewrite MN in E. injection E as <- <- <-. split; [|intros sn d d' []]. exists (FOff P mask). split; auto. apply FO_umount.
  - assert (ST : stable (v_d v)). { destruct SE; auto; congruence. }
    destruct (STB ST) as (F & X & ZX & PX & PF & CX).
    assert (SS : FSim v (FU X mask)).
    { exists F. split; auto. }
    destruct (funmounted_run g OK atom MOUNT_MASK TRANSACT_MASK TRANSACT_DEFAULT FMount o1 o2 v X mask AL RM SS) as (r' & v1' & t1' & E' & a' & AS & SS' & TT).
    rewrite E in E'. injection E' as <- <- <-. split.
    + inversion AS; subst; try (match goal with Q : _ \/ _ |- _ => exfalso; destruct Q as [Q|[Q|[Q|[Q|[(? & Q)|Q]]]]]; discriminate Q end).
      * eexists. split; [apply FO_mount; exact PX|exact SS'].
      * exists (FOff P (v_mask v)). split; [apply FO_mountio|]. destruct SS' as (Y & S1 & S2 & S3 & S4 & S5). destruct Y as [Y|]; [destruct S4|]. destruct F as [F|]; [destruct ZX|].
        exists P0. split; [exact CV|]. split; [auto|]. split; [auto|]. split; [auto|]. apply (MS_DVo good g OK atom P0 _ None S3 PF).
    + intros sn d d' IN HD LO. unfold FsFormat.TRo in TT. rewrite Forall_forall in TT. destruct (TT sn IN d HD d' LO) as (Y & (X' & ZY & AY & _) & MY).
      exists X', Y. split; [|auto]. apply FO_crash. inversion AY; subst. match goal with Q : _ = _ \/ _ |- _ => destruct Q as [->|[Q _]]; [auto|discriminate Q] end.
Qed.

Lemma fmayhap_lose d d1 d2 : mayhap (fun _ => false) d d1 -> lose d1 d2 -> lose d d2.
Proof using.
  clear. intros (A1 & A2 & A3 & A4 & A5) (L1 & L2 & L3 & L4 & L5 & L6). split; [|split; [|split; [|auto]]].
  - intros b Hb. destruct (A1 b eq_refl) as (B1 & B2). rewrite L1; [auto|congruence].
  - intros i. specialize (L2 i). rewrite A2, A3 in L2. auto.
  - rewrite A4, A5 in L3. auto.
Qed.
(** * Steps *)
Theorem xstep_sim v e v' x : XSim v x -> xstep v e v' ->
  match e with Some e => exists x', fxstep x e x' /\ XSim v' x' | None => XSim v' x end.
Proof.
  intros HS H.
  assert (LOSE : forall (P : ffs -> Prop) t sn d d', TRx P t -> In sn t -> sn d -> lose d d' -> exists X, P X /\ XSim (boot d') (FUp (FU (Some X) TRANSACT_DEFAULT))).
  { intros P t sn d d' T IN HD LO. destruct (T sn d d' IN HD LO) as (F & X & CF & ZX & PX). exists X. split; auto. eapply fboot; eauto. }
  destruct x as [a|W C mask|P mask|P mask].
  - (* Up *)
    cbn [XSim] in HS.
    inversion H as [v0 c o1 o2 r v1 t AL RM SE EX|v0 c o1 o2 r v1 t sn d d' AL RM SE EX IN HD LO|v0 d d' MH LO|v0 MN ST|v0 d seq MN MH SQ]; subst; clear H.
    + assert (Z0 : fexec c o1 o2 v = (r, v', t) \/ exists x, fxstep (FUp a) (FECall c r) x /\ XSim v' x).
      { destruct a as [W C mask|X mask].
        - destruct (fup_mounted c o1 o2 v W C mask r v' t RM HS EX) as [E|(x & A & B & _)]; [auto|right; exists x; split; [apply ffail_step; auto|auto]].
        - destruct HS as (Y & MN & RS & HM & ZY & MK). destruct (fisformat c) as [->|NF].
          { destruct AL as [AL|AL]; [congruence|]. destruct (umt_fformat o1 o2 v (eq Y) (eq X) mask r v' t MN RS AL (MS_DVo good g OK atom _ _ Y HM eq_refl)) as (F & _); auto.
            - intros Y' <-. eauto.
            - destruct F as [(E & _)|((e & ->) & F)]; auto. right. eexists. split; [apply FX_format|exact F]. }
          destruct (fumt_cases c o1 o2 v r v' t MN EX NF) as [E|(-> & -> & _ & A1 & A2 & A3 & A4)]; auto.
          right. exists (FUp (FU X mask)). split; [apply FX_mount|]. exists Y. rewrite A1, A2, A3, A4. auto. }
      destruct Z0 as [EX'|Z0]; auto. destruct (fstep_sim g OK atom MOUNT_MASK TRANSACT_MASK TRANSACT_DEFAULT v (Some (FECall c r)) v' a HS) as (a' & A & S).
      { eapply FS_call; eauto. }
      exists (FUp a'). split; auto. constructor; auto.
    + assert (Z0 : fexec c o1 o2 v = (r, v1, t) \/ (exists W C mask, a = FM W C mask /\ TRx (fpower_loss (FM W C mask) c) t) \/
         exists X mask Y, a = FU X mask /\ c = FFormat /\ freformat (ICNT g) (eq X) Y /\ exists F, MSo d' F /\ Zo F Y).
      { destruct a as [W C mask|X mask].
        - destruct (fup_mounted c o1 o2 v W C mask r v1 t RM HS EX) as [E|(x & _ & _ & T)]; eauto 7.
        - destruct HS as (Y & MN & RS & HM & ZY & MK). destruct (fisformat c) as [->|NF].
          { destruct AL as [AL|AL]; [congruence|]. destruct (umt_fformat o1 o2 v (eq Y) (eq X) mask r v1 t MN RS AL (MS_DVo good g OK atom _ _ Y HM eq_refl)) as (_ & T); auto.
            - intros Y' <-. eauto.
            - destruct (T sn d d' IN HD LO) as (X' & F & A & B). right. right. exists X, mask, X'. split; auto. split; auto. split; [exact A|]. exists F. exact B. }
          destruct (fumt_cases c o1 o2 v r v1 t MN EX NF) as [E|(-> & -> & -> & _)]; auto. destruct IN. }
      destruct Z0 as [EX'|[(W & C & mask & -> & T)|(X & mask & Y & -> & -> & PY & F & MF' & ZF')]].
      * destruct (fstep_sim g OK atom MOUNT_MASK TRANSACT_MASK TRANSACT_DEFAULT v (Some (FECrash (Some c))) (boot d') a HS) as (a' & A & S).
        { eapply FS_crash; eauto. }
        exists (FUp a'). split; auto. constructor; auto.
      * destruct (LOSE _ t sn d d' T IN HD LO) as (X & PX & SX). exists (FUp (FU (Some X) TRANSACT_DEFAULT)). split; auto. constructor. exact PX.
      * exists (FUp (FU Y TRANSACT_DEFAULT)). split; [|exact (fboot_sim g OK atom MOUNT_MASK TRANSACT_MASK TRANSACT_DEFAULT d' F Y MF' ZF')].
        constructor. apply F_crashumt. destruct PY as [<-|PY]; auto.
    + destruct (fstep_sim g OK atom MOUNT_MASK TRANSACT_MASK TRANSACT_DEFAULT v (Some (FECrash None)) (boot d') a HS) as (a' & A & S).
      { eapply FS_lost; eauto. }
      exists (FUp a'). split; auto. constructor; auto.
    + destruct (fstep_sim g OK atom MOUNT_MASK TRANSACT_MASK TRANSACT_DEFAULT v (Some (FECrash None)) (boot (v_d v)) a HS) as (a' & A & S).
      { apply FS_init; auto. }
      exists (FUp a'). split; auto. constructor; auto.
    + apply (fstep_sim g OK atom MOUNT_MASK TRANSACT_MASK TRANSACT_DEFAULT v None _ a HS). apply FS_back; auto.
  - (* Ro *)
    pose proof HS as (F & G & HV & ZF & ZG & RO & MK). assert (MN : v_mnt v = true) by (destruct HV as (? & ? & X); apply X).
    inversion H as [v0 c o1 o2 r v1 t AL RM SE EX|v0 c o1 o2 r v1 t sn d d' AL RM SE EX IN HD LO|v0 d d' MH LO|v0 MN' ST|v0 d seq MN' MH SQ]; subst; clear H.
    + apply (ro_sim c o1 o2 v W C _ r v' t HS EX).
    + destruct (ro_sim c o1 o2 v W C _ r v1 t HS EX) as (_ & T). destruct (LOSE _ t sn d d' T IN HD LO) as (X & <- & SX). eexists. split; [apply FR_crash|exact SX].
    + unfold dirty in MH. rewrite MN in MH. eexists. split; [apply FR_crash|]. apply (fboot d' G); auto. eapply (CS_lose good g OK); eauto. eapply (back_CS good g OK); eauto.
    + congruence.
    + exists F, G. split; [|auto]. eapply (back_ok good g OK); eauto.
  - (* Down *)
    pose proof HS as (P0 & (MN & RO & RS & MK & HD0) & CV).
    inversion H as [v0 c o1 o2 r v1 t AL RM SE EX|v0 c o1 o2 r v1 t sn d d' AL RM SE EX IN HD LO|v0 d d' MH LO|v0 MN' ST|v0 d seq MN' MH SQ]; subst; clear H.
    + apply (down_sim c o1 o2 v P _ r v' t HS EX).
    + destruct (down_sim c o1 o2 v P _ r v1 t HS EX) as (_ & T). destruct (LOSE _ t sn d d' T IN HD LO) as (X & PX & SX). eexists. split; [apply FD_crash; exact PX|exact SX].
    + unfold dirty in MH. rewrite MN in MH. destruct (HD0 d MH) as (A & _). destruct (A d' LO) as (F & PF & CF). destruct (CV F PF) as (X & ZX & PX).
      eexists. split; [apply FD_crash; exact PX|eapply fboot; eauto].
    + congruence.
    + exists P0. split; [|exact CV]. split; [exact MN|]. split; [exact RO|]. split; [exact RS|]. split; [reflexivity|]. eapply DV_mayhap; eauto.
  - (* Off *)
    pose proof HS as (P0 & CV & MN & RS & MK & HD0).
    inversion H as [v0 c o1 o2 r v1 t AL RM SE EX|v0 c o1 o2 r v1 t sn d d' AL RM SE EX IN HD LO|v0 d d' MH LO|v0 MN' ST|v0 d seq MN' MH SQ]; subst; clear H.
    + apply (off_sim c o1 o2 v P _ r v' t HS AL RM SE EX).
    + destruct (off_sim c o1 o2 v P _ r v1 t HS AL RM SE EX) as (_ & T). destruct (T sn d d' IN HD LO) as (X & Y & HX & MX' & ZX).
      exists (FUp (FU X TRANSACT_DEFAULT)). split; [exact HX|exact (fboot_sim g OK atom MOUNT_MASK TRANSACT_MASK TRANSACT_DEFAULT d' Y X MX' ZX)].
    + unfold dirty in MH. rewrite MN in MH. destruct HD0 as (HC & _). destruct (HC d' (fmayhap_lose _ _ _ MH LO)) as (F & PF & CF). destruct (CV F PF) as (X & ZX & PX).
      eexists. split; [apply FO_crash; exact PX|exact (fboot_sim g OK atom MOUNT_MASK TRANSACT_MASK TRANSACT_DEFAULT d' F X CF ZX)].
    + destruct HD0 as (_ & K). destruct (K _ (part_refl _) ST) as (F & PF & CF). destruct (CV F PF) as (X & ZX & PX).
      eexists. split; [apply FO_crash; exact PX|exact (fboot_sim g OK atom MOUNT_MASK TRANSACT_MASK TRANSACT_DEFAULT _ F X CF ZX)].
    + congruence.
Qed.
Theorem xsteps_sim v t v' : xsteps v t v' -> forall x, XSim v x -> exists x', fxsteps x t x' /\ XSim v' x'.
Proof.
  induction 1 as [v|v e v1 t v2 S1 _ IH|v v1 t v2 S1 _ IH]; intros x HS.
  - exists x. split; [constructor|auto].
  - destruct (xstep_sim _ _ _ _ HS S1) as (x1 & A1 & HS1). destruct (IH x1 HS1) as (x2 & A2 & HS2). exists x2. split; auto. econstructor; eauto.
  - apply IH. exact (xstep_sim _ _ _ _ HS S1).
Qed.

(** * The runs without failures are among those with failures *)
Lemma ffmap_incl {A} (f : A -> fout) (mF : FPV A) (m : PV A) v r v' t : (forall r v' t, m v = (r, v', t) -> mF v r v' t) -> fmap_ f m v = (r, v', t) -> ffmap f mF v r v' t.
Proof using.
  clear. intros H. unfold fmap_, pbind. destruct (m v) as [[r1 v1] t1] eqn:E. specialize (H _ _ _ eq_refl). destruct r1 as [a|e]; intros K; injection K as <- <- <-.
  - exists (Ok a), v1, t1. split; auto. exists []. split; auto. reflexivity.
  - exists (Err e), v1, t1. auto.
Qed.
Lemma fexec_incl c o1 o2 v a r v' t : FSim v a -> fallowed v c -> room v o1 o2 -> fexec c o1 o2 v = (r, v', t) -> fexecF c o1 o2 v r v' t.
Proof.
  intros HS AL RM. assert (MD : (v_mnt v = true /\ exists W C, VI v W C) \/ v_mnt v = false).
  { destruct a as [W C mask|X mask]; [left|right; destruct HS as (Y & HS); apply HS]. destruct HS as (F & G & HV & _). split; eauto. destruct HV as (? & ? & X); apply X. }
  unfold room in RM.
  assert (MOD : forall A (m : M st A) F f R E ev, OPS False m R E -> fltw std m F -> fmap_ f (FsVolume.autocommit ev m o1 o2) v = (r, v', t) -> ffmap f (autocommit atom ev F o1 o2) v r v' t).
  { intros A m F f R E ev HO (_ & HI & _). apply ffmap_incl. intros r1 v1 t1 K. destruct MD as [(MN & W & C & HV)|MN].
    - eapply (autocommit_incl good g OK); eauto. lia.
    - unfold FsVolume.autocommit, autocommit, guard, fguard in *. rewrite MN in *. cbn [negb] in *. injection K as <- <- <-. auto. }
  assert (RDX : forall A (m : M st A) F f, fs_ std m F -> fmap_ f (FsVolume.mounted m) v = (r, v', t) -> ffmap f (mounted F) v r v' t).
  { intros A m F f (_ & HI & _). apply ffmap_incl. intros r1 v1 t1 K. unfold FsVolume.mounted, mounted in *. destruct (v_mnt v); cbn [negb] in *.
    - eapply core_incl; eauto.
    - injection K as <- <- <-. auto. }
  destruct c; cbn [FltFse.fexecF FseVol.fexec]; auto.
  - destruct (negb (v_mnt v)); auto. apply ffmap_incl. intros r1 v1 t1 K. left. auto.
  - destruct (v_mnt v); auto. apply ffmap_incl. intros r1 v1 t1. unfold FsVolume.RedCoreVolUnmount, FltVolume.RedCoreVolUnmount, pbind.
    destruct (s_ro (v_s v)) eqn:RO; cbn [negb andb].
    + cbn. intros K. injection K as <- <- <-. exists (Ok tt), v, []. split; [reflexivity|]. exists []. split; reflexivity.
    + destruct (has (v_mask v) T_UMOUNT).
      * destruct (FsVolume.RedVolTransact o1 v) as [[r2 v2] t2] eqn:TT. pose proof (transact_incl atom _ _ _ _ _ RO TT) as TF.
        destruct r2 as [[]|e]; cbn; intros K; injection K as <- <- <-.
        -- exists (Ok tt), v2, t2. split; [exact TF|]. exists []. split; reflexivity.
        -- exists (Err e), v2, t2. split; [exact TF|]. auto.
      * cbn. intros K. injection K as <- <- <-. exists (Ok tt), v, []. split; [reflexivity|]. exists []. split; reflexivity.
  - apply ffmap_incl. intros r1 v1 t1 K. destruct MD as [(MN & _)|MN].
    + revert K. unfold FsVolume.RedVolFormatWith, FltVolume.RedVolFormatWith. rewrite MN. intros K. injection K as <- <- <-. auto.
    + destruct a as [W C mask|X mask]; [destruct HS as (F & G & (? & ? & X) & _); pose proof (x_mnt _ _ _ _ _ _ _ _ X); congruence|]. destruct HS as (Y & _ & RS & HM & MK).
      destruct AL as [AL|AL]; [congruence|]. apply (format_incl good g OK atom anyr (FseVol.FseMake g) (FltFse.FseMake g) (FnewN (ICNT g))); auto.
      * apply loop_fltf.
      * apply FnewN_good.
      * apply (FseMake_run g OK).
  - destruct (INT32_MAX <? len); auto. eapply RDX. apply c_FileRead.
  - destruct (N.ltb_spec INT32_MAX len) as [L|L]; auto. eapply MOD; [apply (fops_write g OK i off len src L)|apply c_Write].
  - eapply MOD; [apply (fops_truncate g OK i size)|apply c_Truncate].
  - eapply RDX. apply c_SizeGet.
  - apply ffmap_incl. intros r1 v1 t1. unfold FsVolume.RedCoreVolTransact, FltVolume.RedCoreVolTransact, guard, fguard. destruct (negb (v_mnt v)); [intros K; injection K as <- <- <-; auto|].
    destruct (s_ro (v_s v)) eqn:RO; [intros K; injection K as <- <- <-; auto|]. apply transact_incl; auto.
  - apply ffmap_incl. intros r1 v1 t1. unfold FsVolume.RedCoreVolRollback, FltVolume.RedCoreVolRollback, guard, fguard. destruct (negb (v_mnt v)); [intros K; injection K as <- <- <-; auto|].
    destruct (s_ro (v_s v)) eqn:RO; [intros K; injection K as <- <- <-; auto|]. left. auto.
Qed.
Lemma FSim_stable v X mask : FSim v (FU X mask) -> stable (v_d v).
Proof.
  intros (Y & _ & _ & HM & _). destruct Y as [C|]; cbn in HM; [|split; [|left]; destruct HM; congruence].
  destruct HM as (i & q & m & mq & (S1 & S2 & S3 & S4) & _ & M1 & M2 & _). split; [congruence|right]. rewrite (choose_older atom _ _ _ _ S1 S3), (choose_older atom _ _ _ _ S2 S4). reflexivity.
Qed.
Theorem fstep_xstep v e v' a : FSim v a -> fstep v e v' -> xstep v e v'.
Proof.
  intros HS H.
  assert (SE : forall c, fsettled v c).
  { intros c. destruct a as [W C mask|X mask].
    - assert (MN : v_mnt v = true) by (destruct HS as (F & G & (? & ? & X) & _); apply X). destruct c; cbn in *; auto.
    - pose proof (FSim_stable _ _ _ HS). destruct c; cbn; auto. }
  inversion H as [v0 c o1 o2 r v1 t AL RM EX|v0 c o1 o2 r v1 t sn d d' AL RM EX IN HD LO|v0 d d' MH LO|v0 MN|v0 d seq MN MH SQ]; subst; clear H.
  - eapply XS_call; eauto. eapply fexec_incl; eauto.
  - eapply XS_crash; eauto. eapply fexec_incl; eauto.
  - eapply XS_lost; eauto.
  - apply XS_init; auto. destruct a as [W C mask|X mask]; [|eapply FSim_stable; eauto]. destruct HS as (F & G & (? & ? & X) & _). pose proof (x_mnt _ _ _ _ _ _ _ _ X). congruence.
  - apply XS_back; auto.
Qed.
Theorem fsteps_xsteps v t v' : FseReach.fsteps g atom MOUNT_MASK TRANSACT_MASK TRANSACT_DEFAULT v t v' -> forall a, FSim v a -> xsteps v t v'.
Proof.
  induction 1 as [v|v e v1 t v2 S1 _ IH|v v1 t v2 S1 _ IH]; intros a HS.
  - constructor.
  - destruct (fstep_sim g OK atom MOUNT_MASK TRANSACT_MASK TRANSACT_DEFAULT _ _ _ _ HS S1) as (a1 & _ & HS1). econstructor; [eapply fstep_xstep; eauto|eauto].
  - eapply XSs_back; [eapply fstep_xstep; eauto|]. eapply IH. exact (fstep_sim g OK atom MOUNT_MASK TRANSACT_MASK TRANSACT_DEFAULT _ _ _ _ HS S1).
Qed.
End R.
