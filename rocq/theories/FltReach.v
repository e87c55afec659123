(** Histories of a volume on a device that may fail: they are histories of the specification of FltSpec.v. *)
From Verif Require Import Base Count FsState FsImap FsInode FsData FsTree FsImapProof FsInv FsStep FsBranch FsRead FsWrite FsVol FsVol2 FsVol3 FsVol4 FsWp FsDir FsDirP FsCore FsWr FsRo FsSpec FsSpecP FsCoreP FsCoreP2 FsCoreP3 FsCoreP4 FsCoreP5 FsMach FsVolume FsVolumeP FsReach.
From Verif Require Import FltMonad FltImap FltInode FltData FltDir FltCore FltP FltCoreP FltVolume FltVolumeP FltSpec.
Ltac Zify.zify_post_hook ::= idtac.
Close Scope flt_scope.

Section R.
Variable g : cfg.
Hypothesis OK : cfg_ok g.
Variable atom : bool.
Variable MOUNT_MASK TRANSACT_MASK TRANSACT_DEFAULT : N.
Set Default Proof Using "All".
Notation MX := (INODE_SIZE_MAX g).
Notation exec := (exec g atom MOUNT_MASK TRANSACT_MASK).
Notation execF := (execF g atom MOUNT_MASK TRANSACT_MASK).
Notation boot := (boot TRANSACT_DEFAULT).
Notation lose := (lose atom).
Notation stable := (stable atom).
Notation step := (FsReach.step g atom MOUNT_MASK TRANSACT_MASK TRANSACT_DEFAULT).
Notation astep := (astep (NMAX g) MX (ICNT g) MOUNT_MASK TRANSACT_MASK TRANSACT_DEFAULT).
Notation fastep := (fastep (NMAX g) MX (ICNT g) MOUNT_MASK TRANSACT_MASK TRANSACT_DEFAULT).
Notation fasteps := (fasteps (NMAX g) MX (ICNT g) MOUNT_MASK TRANSACT_MASK TRANSACT_DEFAULT).
Notation power_loss := (power_loss (NMAX g) MX (ICNT g) MOUNT_MASK TRANSACT_MASK TRANSACT_DEFAULT).
Notation Sim := (Sim g atom).
Notation MS := (MS g atom).
Notation TRo := (TRo g atom).
Notation DN := (DN WF g atom).
Notation DV := (DV WF g atom).
Notation DVo := (DVo WF g atom).
Notation TR := (TR g atom).

(** A volume is mounted or initialised again only when the outcome of the last writes of the metaroot and of the master block
    is settled: what a mount finds is what it would find after losing power. *)
Definition settled (v : vol) (c : call) : Prop := match c with CMount _ => stable (v_d v) | _ => True end.
Inductive fstep : vol -> option event -> vol -> Prop :=
| F_call v c o1 o2 r v' t : legal c -> allowed v c -> room v o1 o2 -> settled v c -> execF c o1 o2 v r v' t ->
    fstep v (Some (ECall c r)) v'
| F_crash v c o1 o2 r v' t sn d d' : legal c -> allowed v c -> room v o1 o2 -> settled v c -> execF c o1 o2 v r v' t ->
    In sn t -> sn d -> lose d d' -> fstep v (Some (ECrash (Some c))) (boot d')
| F_lost v d d' : mayhap (dirty v) (v_d v) d -> lose d d' -> fstep v (Some (ECrash None)) (boot d')
| F_init v : v_mnt v = false -> stable (v_d v) -> fstep v (Some (ECrash None)) (boot (v_d v))
| F_back v d seq : v_mnt v = true -> mayhap (s_wr (v_s v)) (v_d v) d -> v_seq v <= seq <= UINT64_MAX ->
    fstep v None (vset_seq seq (vset_d d v)).
Inductive fsteps : vol -> list event -> vol -> Prop :=
| Fs_nil v : fsteps v [] v
| Fs_cons v e v1 t v2 : fstep v (Some e) v1 -> fsteps v1 t v2 -> fsteps v (e :: t) v2
| Fs_back v v1 t v2 : fstep v None v1 -> fsteps v1 t v2 -> fsteps v t v2.

Definition FSim (v : vol) (x : xst) : Prop :=
  match x with
  | Up a => Sim v a
  | Down P mask => DN P mask v
  | Off P mask => v_mnt v = false /\ s_res (v_s v) = false /\ v_mask v = mask /\ DVo P (v_d v)
  end.

(** ** Combinators *)
Lemma fomap_inv {A} (f : A -> out) (m : FPV A) v r v' t : fomap f m v r v' t ->
  (exists a t1, m v (Ok a) v' t1 /\ r = Ok (f a) /\ t = t1 ++ []) \/ (exists e, m v (Err e) v' t /\ r = Err e).
Proof using.
  clear. intros (r1 & v1 & t1 & H & K). destruct r1 as [a|e].
  - destruct K as (t2 & K & ->). injection K as <- <- <-. left. eauto.
  - destruct K as (-> & -> & ->). right. eauto.
Qed.
Lemma fomap_cases {A} (f : A -> out) (mF : FPV A) (m : PV A) v r v' t (bd : errno -> Prop) (B : vol -> list snap -> Prop) :
  (forall r v' t, mF v r v' t -> m v = (r, v', t) \/ (exists e, r = Err e /\ bd e) /\ B v' t) ->
  fomap f mF v r v' t -> omap f m v = (r, v', t) \/ (exists e, r = Err e /\ bd e) /\ B v' t.
Proof using.
  clear. intros H K. unfold omap, pbind. destruct (fomap_inv f mF v r v' t K) as [(a & t1 & K1 & -> & ->)|(e & K1 & ->)].
  - destruct (H _ _ _ K1) as [->|((e & E & _) & _)]; [left; reflexivity|discriminate E].
  - destruct (H _ _ _ K1) as [->|X]; [left; reflexivity|right]. destruct X as ((e' & E & Y) & Z). injection E as ->. eauto.
Qed.

(** ** Calls that write *)
Lemma mod_flt {A} (bad : res A -> Prop) (m : M st A) F c f o1 o2 v W C mask r v' t :
  OPS g False m (fun x F F' => op_ok (NMAX g) MX (ICNT g) c (f x) F F') (fun F e => op_err (NMAX g) MX (ICNT g) c F e) -> fltw bad m F ->
  (forall a, ~ bad (Ok a)) -> bad (Err EIO) -> (forall e, bad (Err e) -> io_error c e) ->
  modifies c = true -> Sim v (Mnt W C false mask) -> room v o1 o2 ->
  fomap f (autocommit atom (evbit c) F o1 o2) v r v' t ->
  omap f (FsVolume.autocommit (evbit c) m o1 o2) v = (r, v', t) \/
  (exists e, r = Err e /\ io_error c e) /\ DN (power_loss (Mnt W C false mask) c) mask v' /\ TR (power_loss (Mnt W C false mask) c) t.
Proof.
  intros HO HF NB BE IE MC (HV & RO & MK) RM. unfold room in RM.
  apply (fomap_cases f (autocommit atom (evbit c) F o1 o2) (FsVolume.autocommit (evbit c) m o1 o2) v r v' t (fun e => io_error c e)
     (fun v' t => DN (power_loss (Mnt W C false mask) c) mask v' /\ TR (power_loss (Mnt W C false mask) c) t)).
  intros r1 v1 t1 H. subst mask.
  destruct (autocommit_flt WF g OK atom bad m F _ _ (evbit c) o1 o2 v W C (power_loss (Mnt W C false (v_mask v)) c) r1 v1 t1 HO HF NB BE HV RO ltac:(lia)) as [E|((e & -> & BD) & D & T)]; auto.
  - apply A_crash. auto.
  - intros VF. apply A_crash. right. split; auto. left. split; auto. left. right. auto.
  - intros a W' HE HR. apply A_crash. right. split; auto. left. split; auto. right. split; eauto.
  - right. split; eauto.
Qed.
Lemma fguard_ro {A} (f : A -> out) (m : FPV A) m' v r v' t : v_mnt v = true -> s_ro (v_s v) = true -> fomap f (fguard m) v r v' t ->
  r = Err EROFS /\ v' = v /\ t = [] /\ omap f (guard _ m') v = (r, v', t).
Proof using.
  clear. intros MN RO (r1 & v1 & t1 & H & K). unfold omap, pbind, guard. unfold fguard in H. rewrite MN, RO in *. cbn [negb] in *.
  destruct H as (-> & -> & ->), K as (-> & -> & ->). auto.
Qed.
Lemma fguard_umt {A} (f : A -> out) (m : FPV A) m' v r v' t : v_mnt v = false -> fomap f (fguard m) v r v' t ->
  r = Err EINVAL /\ v' = v /\ t = [] /\ omap f (guard _ m') v = (r, v', t).
Proof using.
  clear. intros MN (r1 & v1 & t1 & H & K). unfold omap, pbind, guard. unfold fguard in H. rewrite MN in *. cbn [negb] in *.
  destruct H as (-> & -> & ->), K as (-> & -> & ->). auto.
Qed.
Lemma mounted_umt {A} (f : A -> out) (m : MF st A) m' v r v' t : v_mnt v = false -> fomap f (mounted m) v r v' t ->
  r = Err EINVAL /\ v' = v /\ t = [] /\ omap f (FsVolume.mounted m') v = (r, v', t).
Proof using.
  clear. intros MN (r1 & v1 & t1 & H & K). unfold omap, pbind, FsVolume.mounted. unfold mounted in H. rewrite MN in *. cbn [negb] in *.
  destruct H as (-> & -> & ->), K as (-> & -> & ->). auto.
Qed.

(** ** Calls that read *)
Lemma VI_ro v W C b : VI g atom v W C -> VI g atom (vset_s (set_ro b (v_s v)) v) W C.
Proof. intros (C0 & D0 & [X1 X2 X3 X4 X5 X6 X7 X8 X9 X10]). exists C0, D0. constructor; auto. Qed.
Lemma read_flt {A} (m : M st A) F c f v W C ro mask r v' t : fs_ std m F -> rdo (fun s : st => s) F -> rs m -> reads c = true ->
  (forall C0 D0 F s, FSV g C0 D0 F s -> exists r, m s = (r, s) /\ read_ok (NMAX g) c F (match r with Ok a => Ok (f a) | Err e => Err e end)) ->
  Sim v (Mnt W C ro mask) -> fomap f (mounted F) v r v' t ->
  omap f (FsVolume.mounted m) v = (r, v', t) \/
  (exists e, r = Err e /\ e = EIO) /\ Sim v' (Mnt W C true mask) /\ TR (eq C) t.
Proof.
  intros (_ & _ & HF) RD HR RC H (HV & RO & MK).
  apply (fomap_cases f (mounted F) (FsVolume.mounted m) v r v' t (fun e => e = EIO) (fun v' t => Sim v' (Mnt W C true mask) /\ TR (eq C) t)).
  intros r1 v1 t1. unfold mounted, FsVolume.mounted. assert (MN : v_mnt v = true) by (destruct HV as (? & ? & X); apply X). rewrite MN. cbn [negb].
  intros (s' & R & -> & ->). destruct (HF _ _ _ R) as (_ & [E|(BD & Z1 & _)]); [left; unfold core; now rewrite E|]. right.
  split; [exists EIO; auto|]. unfold std in BD.
  assert (ES : s' = set_ro true (v_s v)). { destruct (RD _ _ _ R) as [E|E]; auto. rewrite E in Z1 |- *. symmetry. now apply set_ro_id. }
  subst s'. split.
  - split; [apply VI_ro; auto|]. split; [reflexivity|exact MK].
  - cbn [s_wr set_ro]. eapply (back_TR g OK atom v W C); eauto.
Qed.

(** ** All calls on a mounted volume *)
(** What a failure does. *)
Definition fail_to (W C : fs) (ro : bool) (mask : N) (c : call) (r : res out) (x : xst) : Prop :=
  ro = false /\ (modifies c = true \/ c = CTransact \/ c = CRollback \/ c = CUnmount) /\ (exists e, r = Err e /\ io_error c e) /\ x = Down (power_loss (Mnt W C false mask) c) mask \/
  reads c = true /\ r = Err EIO /\ x = Up (Mnt W C true mask).
Lemma fail_to_step W C ro mask c r x : fail_to W C ro mask c r x -> fastep (Up (Mnt W C ro mask)) (ECall c r) x.
Proof using. intros [(-> & HC & (e & -> & HE) & ->)|(RC & -> & ->)]; [apply X_fail; auto|apply X_read; auto]. Qed.
Lemma up_mounted c o1 o2 v W C ro mask r v' t : legal c -> allowed v c -> room v o1 o2 -> Sim v (Mnt W C ro mask) -> execF c o1 o2 v r v' t ->
  exec c o1 o2 v = (r, v', t) \/
  exists x, fail_to W C ro mask c r x /\ FSim v' x /\ TR (power_loss (Mnt W C ro mask) c) t.
Proof.
  intros LG AL RM HS H. pose proof HS as (HV & RO & MK). assert (MN : v_mnt v = true) by (destruct HV as (? & ? & X); apply X).
  assert (MOD : forall A (bad : res A -> Prop) (m : M st A) F f,
    OPS g False m (fun x F F' => op_ok (NMAX g) MX (ICNT g) c (f x) F F') (fun F e => op_err (NMAX g) MX (ICNT g) c F e) -> fltw bad m F ->
    (forall a, ~ bad (Ok a)) -> bad (Err EIO) -> (forall e, bad (Err e) -> io_error c e) -> modifies c = true ->
    fomap f (autocommit atom (evbit c) F o1 o2) v r v' t ->
    omap f (FsVolume.autocommit (evbit c) m o1 o2) v = (r, v', t) \/
    exists x, fail_to W C ro mask c r x /\ FSim v' x /\ TR (power_loss (Mnt W C ro mask) c) t).
  { intros A bad m F f HO HF NB BE IE MC HH. destruct ro.
    - left. eapply fguard_ro in HH; eauto. apply HH.
    - destruct (mod_flt bad m F c f o1 o2 v W C mask r v' t HO HF NB BE IE MC HS RM HH) as [E|((e & -> & HE) & D & T)]; auto.
      right. exists (Down (power_loss (Mnt W C false mask) c) mask). split; [left; split; [auto|]; split; [auto|]; split; [eauto|auto]|auto]. }
  assert (RDX : forall A (m : M st A) F f, fs_ std m F -> rdo (fun s : st => s) F -> rs m -> reads c = true ->
    (forall C0 D0 F s, FSV g C0 D0 F s -> exists r, m s = (r, s) /\ read_ok (NMAX g) c F (match r with Ok a => Ok (f a) | Err e => Err e end)) ->
    fomap f (mounted F) v r v' t -> omap f (FsVolume.mounted m) v = (r, v', t) \/
    exists x, fail_to W C ro mask c r x /\ FSim v' x /\ TR (power_loss (Mnt W C ro mask) c) t).
  { intros A m F f HF RD HR RC HRd HH. destruct (read_flt m F c f v W C ro mask r v' t HF RD HR RC HRd HS HH) as [E|((e & -> & ->) & S & T)]; auto.
    right. exists (Up (Mnt W C true mask)). split; [right; auto|]. split; auto. eapply (TR_imp g atom); [|exact T]. intros X <-. apply A_crash. auto. }
  assert (NS : forall A a, ~ std (Ok a : res A)) by (intros A a E; discriminate E).
  assert (NA : forall A a, ~ anyerr (Ok a : res A)) by (intros A a [e E]; discriminate E).
  assert (IS : forall A e, std (Err e : res A) -> io_error c e) by (intros A e E; injection E as ->; left; auto).
  destruct c; cbn [FltVolume.execF FsVolume.exec] in H |- *.
  - apply (MOD _ anyerr _ _ ONum (ops_create g OK p nm dir LG) (c_Create g p nm dir)); auto; [eexists; reflexivity|].
    intros e _. right. eauto.
  - apply (MOD _ std _ _ (fun _ => OUnit) (ops_link g OK p nm i LG) (c_Link g p nm i)); auto; [reflexivity|apply IS].
  - apply (MOD _ std _ _ (fun _ => OUnit) (ops_unlink g OK p nm LG) (c_Unlink g p nm)); auto; [reflexivity|apply IS].
  - destruct LG as [L1 L2]. apply (MOD _ std _ _ (fun _ => OUnit) (ops_rename g OK sp sn dp dn L1 L2) (c_Rename g sp sn dp dn)); auto; [reflexivity|apply IS].
  - apply (MOD _ std _ _ ONum (ops_write g OK i start len src) (c_Write g i start len src)); auto; [reflexivity|apply IS].
  - apply (MOD _ std _ _ (fun _ => OUnit) (ops_truncate g OK i size) (c_Truncate g i size)); auto; [reflexivity|apply IS].
  - apply (RDX _ _ _ ONum (c_Lookup g p nm) (d_Lookup g p nm) (r_CoreLookup g p nm)); auto.
    intros C0 D0 F s HF. destruct (core_lookup g OK C0 D0 F s p nm HF LG) as (r1 & R & X). exists r1. split; auto. destruct r1; exact X.
  - apply (RDX _ _ _ OStat (c_Stat g i) (d_Stat g i) (r_CoreStat g i)); auto.
    intros C0 D0 F s HF. destruct (core_stat g OK C0 D0 F s i HF) as (r1 & R & X). exists r1. split; auto. destruct r1 as [[[[d nl] sz] bl]|]; exact X.
  - apply (RDX _ _ _ ORead (c_FileRead g i start len) (d_FileRead g i start len) (r_CoreFileRead g i start len)); auto.
    intros C0 D0 F s HF. destruct (core_read g OK C0 D0 F s i start len HF) as (r1 & R & X). exists r1. split; auto. destruct r1 as [[n f]|]; exact X.
  - apply (RDX _ _ _ OEnt (c_DirRead g i pos) (d_DirRead g i pos) (r_CoreDirRead g i pos)); auto.
    intros C0 D0 F s HF. destruct (core_dirread g OK C0 D0 F s i pos HF) as (r1 & R & X). exists r1. split; auto. destruct r1 as [[[[nm j]|] k']|]; exact X.
  - apply (RDX _ _ _ ONum (c_DirParent g i) (d_DirParent g i) (r_CoreDirParent g i)); auto.
    intros C0 D0 F s HF. destruct (core_dirparent g OK C0 D0 F s i HF) as (r1 & R & X). exists r1. split; auto. destruct r1; exact X.
  - (* transact *)
    destruct ro; [left; eapply fguard_ro in H; eauto; apply H|].
    assert (Z : ounit (FsVolume.RedCoreVolTransact o1) v = (r, v', t) \/ (exists e, r = Err e /\ e = EIO) /\ DN (power_loss (Mnt W C false mask) CTransact) mask v' /\ TR (power_loss (Mnt W C false mask) CTransact) t).
    { apply (fomap_cases (fun _ => OUnit) (FltVolume.RedCoreVolTransact atom o1) (FsVolume.RedCoreVolTransact o1) v r v' t (fun e => e = EIO)
        (fun v' t => DN (power_loss (Mnt W C false mask) CTransact) mask v' /\ TR (power_loss (Mnt W C false mask) CTransact) t)); auto.
      intros r1 v1 t1. unfold FltVolume.RedCoreVolTransact, FsVolume.RedCoreVolTransact, fguard, guard. rewrite MN, RO. cbn [negb]. intros HT. subst mask.
      destruct (transact_flt WF g OK atom v W C o1 (power_loss (Mnt W C false (v_mask v)) CTransact) r1 v1 t1 HV) as [E|(-> & D & T)]; auto.
      - unfold room in RM. lia.
      - apply A_crash. auto.
      - apply A_crash. right. split; auto.
      - right. split; eauto. }
    destruct Z as [Z|((e & -> & ->) & D & T)]; auto. right. exists (Down (power_loss (Mnt W C false mask) CTransact) mask). split; [left; split; [auto|]; split; [auto|]; split; [exists EIO; split; [auto|left; auto]|auto]|auto].
  - (* rollback *)
    destruct ro; [left; eapply fguard_ro in H; eauto; apply H|].
    assert (Z : ounit (FsVolume.RedCoreVolRollback atom) v = (r, v', t) \/ (exists e, r = Err e /\ e = EIO) /\ DN (power_loss (Mnt W C false mask) CRollback) mask v' /\ TR (power_loss (Mnt W C false mask) CRollback) t).
    { apply (fomap_cases (fun _ => OUnit) (FltVolume.RedCoreVolRollback atom) (FsVolume.RedCoreVolRollback atom) v r v' t (fun e => e = EIO)
        (fun v' t => DN (power_loss (Mnt W C false mask) CRollback) mask v' /\ TR (power_loss (Mnt W C false mask) CRollback) t)); auto.
      intros r1 v1 t1. unfold FltVolume.RedCoreVolRollback, FsVolume.RedCoreVolRollback, fguard, guard. rewrite MN, RO. cbn [negb].
      intros [E|(_ & -> & -> & s & cr & sq & RS & RR & WR & ->)]; auto. right. split; [eauto|]. split; [|constructor].
      split; [exact MN|]. split; [exact RR|]. split; [cbn; rewrite RS; eapply (VI_res g OK); eauto|]. split; [exact MK|]. cbn [v_s v_d].
      destruct HV as (C0 & D0 & X). eapply (VIx_DV WF g OK atom _ C0 D0 v W C); eauto; [apply A_crash; auto|]. intros b Hb. rewrite WR in Hb. discriminate. }
    destruct Z as [Z|((e & -> & ->) & D & T)]; auto. right. exists (Down (power_loss (Mnt W C false mask) CRollback) mask). split; [left; split; [auto|]; split; [auto|]; split; [exists EIO; split; [auto|left; auto]|auto]|auto].
  - left; auto.
  - left; auto.
  - left; auto.
  - cbn in AL. congruence.
  - (* unmount *)
    assert (Z : ounit (FsVolume.RedCoreVolUnmount o1) v = (r, v', t) \/ (exists e, r = Err e /\ e = EIO) /\ ro = false /\ DN (power_loss (Mnt W C ro mask) CUnmount) mask v' /\ TR (power_loss (Mnt W C ro mask) CUnmount) t).
    { apply (fomap_cases (fun _ => OUnit) (FltVolume.RedCoreVolUnmount atom o1) (FsVolume.RedCoreVolUnmount o1) v r v' t (fun e => e = EIO)
        (fun v' t => ro = false /\ DN (power_loss (Mnt W C ro mask) CUnmount) mask v' /\ TR (power_loss (Mnt W C ro mask) CUnmount) t)); auto.
      intros r1 v1 t1. unfold FltVolume.RedCoreVolUnmount, FsVolume.RedCoreVolUnmount, pbind. rewrite RO, MK.
      intros (r2 & v2 & t2 & HT & K). destruct ro; cbn [negb andb] in *.
      - left. injection HT as <- <- <-. destruct K as (t3 & K & ->). injection K as <- <- <-. reflexivity.
      - destruct (has mask T_UMOUNT) eqn:HM.
        + subst mask. destruct (transact_flt WF g OK atom v W C o1 (power_loss (Mnt W C false (v_mask v)) CUnmount) r2 v2 t2 HV) as [E|(-> & D & T)]; auto.
          * unfold room in RM. lia.
          * apply A_crash. auto.
          * apply A_crash. right. split; auto.
          * left. rewrite E. destruct r2 as [[]|]; [destruct K as (t3 & K & ->); injection K as <- <- <-; reflexivity|destruct K as (-> & -> & ->); reflexivity].
          * right. destruct K as (-> & -> & ->). split; eauto.
        + left. injection HT as <- <- <-. destruct K as (t3 & K & ->). injection K as <- <- <-. reflexivity. }
    destruct Z as [Z|((e & -> & ->) & -> & D & T)]; auto. right. exists (Down (power_loss (Mnt W C false mask) CUnmount) mask). split; [left; split; [auto|]; split; [auto|]; split; [exists EIO; split; [auto|left; auto]|auto]|auto].
  - (* format *)
    left. destruct (fomap_inv _ _ _ _ _ _ H) as [(a & t1 & K & _)|(e & K & ->)]; unfold FltVolume.RedVolFormat, FltVolume.RedVolFormatWith in K; rewrite MN in K; destruct K as (K & -> & ->); [discriminate K|].
    injection K as ->. unfold ounit, omap, pbind, FsVolume.RedVolFormat, FsVolume.RedVolFormatWith. rewrite MN. reflexivity.
Qed.

(** ** ... on an unmounted volume *)
Lemma umt_cases c o1 o2 v r v' t : v_mnt v = false -> allowed v c -> execF c o1 o2 v r v' t -> c <> CFormat ->
  exec c o1 o2 v = (r, v', t) \/
  exists flags, c = CMount flags /\ r = Err EIO /\ t = [] /\ v_mnt v' = false /\ s_res (v_s v') = s_res (v_s v) /\ v_d v' = v_d v /\ v_mask v' = v_mask v.
Proof using.
  clear. intros MN AL H NF. destruct c; cbn [FltVolume.execF FsVolume.exec] in H |- *;
    try (left; eapply fguard_umt in H; [apply H|auto]; fail); try (left; eapply mounted_umt in H; [apply H|auto]; fail); auto; try congruence.
  - destruct (fomap_inv _ _ _ _ _ _ H) as [(a & t1 & K & -> & ->)|(e & K & ->)].
    + destruct K as [K|(_ & K & _)]; [|discriminate K]. left. unfold ounit, omap, pbind. rewrite K. reflexivity.
    + destruct K as [K|(_ & K & -> & s & cr & sq & RS & ->)].
      * left. unfold ounit, omap, pbind. rewrite K. reflexivity.
      * right. injection K as ->. exists flags. cbn. auto 10.
Qed.
Lemma MakeRootF : fltf std (FsVolume.MakeRoot g) (FltVolume.MakeRoot g).
Proof using.
  clear. pose proof (f_Create g INODE_ROOTDIR INODE_INVALID true) as FC.
  unfold FsVolume.MakeRoot, FltVolume.MakeRoot. apply fltw_fltf, flt_w. apply (flt_bind _ std); [reflexivity|exact FC|intros c; apply flt_ret].
Qed.
(** Formatting a volume whose media holds one of the states of P0. *)
Lemma umt_format o1 o2 v (P0 : option fs -> Prop) mask r v' t : v_mnt v = false -> s_res (v_s v) = false -> s_afree (v_s v) = 0 -> DVo P0 (v_d v) -> v_mask v = mask -> room v o1 o2 ->
  execF CFormat o1 o2 v r v' t ->
  (exec CFormat o1 o2 v = (r, v', t) /\ r = Ok OUnit /\ Sim v' (Umt (Some Fempty) mask) \/ r = Err EIO /\ FSim v' (Off (reformat P0) mask)) /\ TRo (reformat P0) t.
Proof.
  intros MN RS AF HD MK RM H. cbn [FltVolume.execF FsVolume.exec] in H |- *.
  pose proof MakeRootF as WM.
  unfold room in RM. pose proof (fun r1 v1 t1 => format_flt WF g OK atom std (fun e => e = EIO) _ _ Fempty v P0 o1 o2 r1 v1 t1 WM
    ltac:(unfold std; congruence) eq_refl Fempty_WF (MakeRoot_run g OK) MN RS AF HD RM) as FF.
  destruct (format_genP WF g OK atom (FsVolume.MakeRoot g) Fempty v P0 o1 o2 (MakeRoot_ws g OK) Fempty_WF (MakeRoot_run g OK) MN RS AF (proj1 HD) RM) as (w & tw & E1 & B1 & B2 & B3 & B4 & _ & B6).
  destruct (fomap_cases (fun _ => OUnit) _ (FsVolume.RedVolFormat g o1 o2) v r v' t _ _ FF H) as [E|((e & -> & ->) & F1 & F2 & F3 & F4 & F5)].
  - split; [left; split; [exact E|]|].
    + revert E. unfold ounit, omap, pbind, FsVolume.RedVolFormat. rewrite E1. intros E. injection E as <- <- <-. split; [auto|]. repeat split; auto; congruence.
    + revert E. unfold ounit, omap, pbind, FsVolume.RedVolFormat. rewrite E1. intros E. injection E as <- <- <-. rewrite app_nil_r. exact B6.
  - split; [right; split; [auto|]|auto]. split; [auto|]. split; [auto|]. split; [congruence|auto].
Qed.

Lemma isformat c : c = CFormat \/ c <> CFormat.
Proof using. clear. destruct c; auto; right; discriminate. Qed.
Lemma mayhap_none_lose d d1 d2 : mayhap (fun _ => false) d d1 -> lose d1 d2 -> lose d d2.
Proof using.
  clear. intros (A1 & A2 & A3 & A4 & A5) (L1 & L2 & L3 & L4 & L5 & L6). split; [|split; [|split; [|auto]]].
  - intros b Hb. destruct (A1 b eq_refl) as (B1 & B2). rewrite L1; [auto|congruence].
  - intros i. specialize (L2 i). rewrite A2, A3 in L2. auto.
  - rewrite A4, A5 in L3. auto.
Qed.
(** * Steps *)
Theorem fstep_sim v e v' x : FSim v x -> fstep v e v' ->
  match e with Some e => exists x', fastep x e x' /\ FSim v' x' | None => FSim v' x end.
Proof.
  intros HS H. destruct x as [a|P mask|P mask].
  - (* Up *)
    cbn [FSim] in HS.
    inversion H as [v0 c o1 o2 r v1 t LG AL RM SE EX|v0 c o1 o2 r v1 t sn d d' LG AL RM SE EX IN HD LO|v0 d d' MH LO|v0 MN ST|v0 d seq MN MH SQ]; subst; clear H.
    + assert (Z : exec c o1 o2 v = (r, v', t) \/ exists x, fastep (Up a) (ECall c r) x /\ FSim v' x).
      { destruct a as [W C ro mask|X mask].
        - destruct (up_mounted c o1 o2 v W C ro mask r v' t LG AL RM HS EX) as [E|(x & A & B & _)]; [auto|right; exists x; split; [apply fail_to_step; auto|auto]].
        - destruct HS as (MN & RS & HM & MK). destruct (isformat c) as [->|NF].
          + destruct AL as [AL|AL]; [congruence|]. destruct (umt_format o1 o2 v (eq X) mask r v' t MN RS AL (MS_DVo WF g OK atom _ _ X HM eq_refl) MK RM EX) as ([(E & _)|(-> & F)] & _); auto.
            right. eexists. split; [apply X_format|exact F].
          + destruct (umt_cases c o1 o2 v r v' t MN AL EX NF) as [E|(flags & -> & -> & _ & A1 & A2 & A3 & A4)]; auto.
            right. exists (Up (Umt X mask)). split; [apply X_mount|]. cbn. rewrite A1, A2, A3, A4. auto. }
      destruct Z as [EX'|Z]; auto. destruct (step_sim g OK atom MOUNT_MASK TRANSACT_MASK TRANSACT_DEFAULT v (Some (ECall c r)) v' a HS) as (a' & A & S).
      { eapply S_call; eauto. }
      exists (Up a'). split; auto. constructor; auto.
    + assert (Z : exec c o1 o2 v = (r, v1, t) \/ TRo (fun X => astep a (ECrash (Some c)) (Umt X TRANSACT_DEFAULT)) t).
      { destruct a as [W C ro mask|X mask].
        - destruct (up_mounted c o1 o2 v W C ro mask r v1 t LG AL RM HS EX) as [E|(x & _ & _ & T)]; auto. right. eapply (TR_TRo g atom); [|exact T]. auto.
        - destruct HS as (MN & RS & HM & MK). destruct (isformat c) as [->|NF].
          + destruct AL as [AL|AL]; [congruence|]. destruct (umt_format o1 o2 v (eq X) mask r v1 t MN RS AL (MS_DVo WF g OK atom _ _ X HM eq_refl) MK RM EX) as (_ & T).
            right. eapply Forall_impl; [|exact T]. intros sn' Hsn d0 Hd d1 L. destruct (Hsn d0 Hd d1 L) as (Y & PY & MY). exists Y. split; auto.
            apply A_crashumt. destruct PY as [<-|PY]; auto.
          + destruct (umt_cases c o1 o2 v r v1 t MN AL EX NF) as [E|(flags & -> & -> & -> & _)]; auto. destruct IN. }
      destruct Z as [EX'|T].
      * destruct (step_sim g OK atom MOUNT_MASK TRANSACT_MASK TRANSACT_DEFAULT v (Some (ECrash (Some c))) (boot d') a HS) as (a' & A & S).
        { eapply S_crash; eauto. }
        exists (Up a'). split; auto. constructor; auto.
      * unfold FsFormat.TRo in T. rewrite Forall_forall in T. destruct (T sn IN d HD d' LO) as (X & PX & CX).
        exists (Up (Umt X TRANSACT_DEFAULT)). split; [constructor; exact PX|]. apply boot_sim; auto.
    + destruct (step_sim g OK atom MOUNT_MASK TRANSACT_MASK TRANSACT_DEFAULT v (Some (ECrash None)) (boot d') a HS) as (a' & A & S).
      { eapply S_lost; eauto. }
      exists (Up a'). split; auto. constructor; auto.
    + destruct (step_sim g OK atom MOUNT_MASK TRANSACT_MASK TRANSACT_DEFAULT v (Some (ECrash None)) (boot (v_d v)) a HS) as (a' & A & S).
      { apply S_init; auto. }
      exists (Up a'). split; auto. constructor; auto.
    + apply (step_sim g OK atom MOUNT_MASK TRANSACT_MASK TRANSACT_DEFAULT v None _ a HS). apply S_back; auto.
  - (* Down *)
    destruct HS as (MN & RO & RS & MK & HD0).
    assert (CR0 : forall d d', mayhap (s_wr (v_s v)) (v_d v) d -> lose d d' -> exists X, P X /\ CS g atom d' X).
    { intros d d' MH LO. destruct (HD0 d MH) as (A & _). exact (A d' LO). }
    assert (RD : forall A f (F : MF st A) r v' t, rdo (fun s : st => s) F -> fomap f (mounted F) v r v' t -> DN P mask v' /\ TR P t).
    { intros A f F r v1 t HR HH. assert (Z' : exists r1, mounted F v r1 v1 t).
      { destruct (fomap_inv _ _ _ _ _ _ HH) as [(x & t1 & K & _ & ->)|(x & K & _)]; [exists (Ok x); now rewrite app_nil_r|exists (Err x); auto]. }
      destruct Z' as (r1 & K). unfold mounted in K. rewrite MN in K. cbn [negb] in K. destruct K as (s' & K & -> & ->).
      assert (ES : s' = v_s v). { destruct (HR _ _ _ K) as [E|E]; auto. rewrite E. now apply set_ro_id. }
      subst s'. split; [destruct v; cbn in *; repeat (split; auto)|]. repeat constructor. intros d Hd d' L. eauto. }
    assert (CALL : forall c o1 o2 r v' t, allowed v c -> execF c o1 o2 v r v' t ->
      (exists x, fastep (Down P mask) (ECall c r) x /\ FSim v' x) /\ TR P t).
    { assert (SELF : FSim v (Down P mask)) by (repeat (split; auto)).
      assert (SAME : forall c r, fastep (Down P mask) (ECall c r) (Down P mask) -> (exists x, fastep (Down P mask) (ECall c r) x /\ FSim v x) /\ TR P []).
      { intros c r A. split; [exists (Down P mask); auto|constructor]. }
      assert (GRD : forall A f (m : FPV A) r v' t c, modifies c = true \/ c = CTransact \/ c = CRollback -> fomap f (fguard m) v r v' t ->
        (exists x, fastep (Down P mask) (ECall c r) x /\ FSim v' x) /\ TR P t).
      { intros A f m r v1 t c HC HH. destruct (fguard_ro f m (fun v => (Err EIO, v, [])) v r v1 t MN RO HH) as (-> & -> & -> & _). apply SAME. apply D_ro; auto. }
      intros c o1 o2 r v1 t AL EX. destruct c; cbn [FltVolume.execF] in EX;
        try (eapply GRD; [|exact EX]; auto; fail).
      - edestruct RD as [A B]; [apply (d_Lookup g p nm)|exact EX|]. split; auto. exists (Down P mask). split; auto. apply D_read; auto.
      - edestruct RD as [A B]; [apply (d_Stat g i)|exact EX|]. split; auto. exists (Down P mask). split; auto. apply D_read; auto.
      - edestruct RD as [A B]; [apply (d_FileRead g i start len)|exact EX|]. split; auto. exists (Down P mask). split; auto. apply D_read; auto.
      - edestruct RD as [A B]; [apply (d_DirRead g i pos)|exact EX|]. split; auto. exists (Down P mask). split; auto. apply D_read; auto.
      - edestruct RD as [A B]; [apply (d_DirParent g i)|exact EX|]. split; auto. exists (Down P mask). split; auto. apply D_read; auto.
      - unfold fpure, ounit, omap, pbind, RedCoreTransMaskSet in EX. rewrite MN, RO in EX. cbn [negb orb] in EX.
        pose proof (D_maskset (NMAX g) MX (ICNT g) MOUNT_MASK TRANSACT_MASK TRANSACT_DEFAULT P mask m) as DM.
        destruct (N.land m TRANSACT_MASK =? m); cbn [negb] in EX; injection EX as <- <- <-; apply SAME; auto.
      - unfold fpure, omap, pbind, RedCoreTransMaskGet, pret in EX. rewrite MN, MK in EX. cbn [negb] in EX. injection EX as <- <- <-. apply SAME. apply D_maskget.
      - unfold fpure, omap, pbind, RedCoreVolStat, pret in EX. rewrite MN, RO in EX. cbn [negb] in EX. injection EX as <- <- <-. apply SAME. apply D_vstat.
      - cbn in AL. congruence.
      - destruct (fomap_inv _ _ _ _ _ _ EX) as [(a & t1 & K & -> & ->)|(e1 & K & ->)]; destruct K as (r2 & v2 & t2 & HT & K); rewrite RO in HT; cbn [negb andb] in HT; injection HT as <- <- <-;
          destruct K as (t3 & K & E1); [|discriminate K]. injection K as <- <- <-.
        rewrite E1. cbn [app]. split; [|constructor]. eexists. split; [apply D_umount|]. split; [reflexivity|]. split; [exact RS|]. split; [exact MK|]. eapply DVo_imp; [|eapply (DV_DVo WF g atom); exact HD0]. auto.
      - destruct (fomap_inv _ _ _ _ _ _ EX) as [(a & t1 & K & _)|(e1 & K & ->)]; unfold FltVolume.RedVolFormat, FltVolume.RedVolFormatWith in K; rewrite MN in K; destruct K as (K & -> & ->); [discriminate K|].
        injection K as ->. apply SAME. apply D_format. }
    inversion H as [v0 c o1 o2 r v1 t LG AL RM SE EX|v0 c o1 o2 r v1 t sn d d' LG AL RM SE EX IN HD LO|v0 d d' MH LO|v0 MN' ST|v0 d seq MN' MH SQ]; subst; clear H.
    + apply (CALL c o1 o2 r v' t AL EX).
    + destruct (CALL c o1 o2 r v1 t AL EX) as (_ & T). unfold FsVolumeG.TR in T. rewrite Forall_forall in T. destruct (T sn IN d HD d' LO) as (X & PX & CX).
      exists (Up (Umt (Some X) TRANSACT_DEFAULT)). split; [apply D_crash; auto|]. apply boot_sim; auto.
    + unfold dirty in MH. rewrite MN in MH. destruct (CR0 d d' MH LO) as (X & PX & CX). exists (Up (Umt (Some X) TRANSACT_DEFAULT)). split; [apply D_crash; auto|]. apply boot_sim; auto.
    + congruence.
    + split; [exact MN|]. split; [exact RO|]. split; [exact RS|]. split; [reflexivity|]. eapply DV_mayhap; eauto.
  - (* Off *)
    destruct HS as (MN & RS & MK & HD0).
    assert (STB : stable (v_d v) -> exists X, P X /\ MS (v_d v) X) by (intros ST; apply (proj2 HD0); auto; apply part_refl).
    assert (SELF : FSim v (Off P mask)) by (split; [auto|]; split; [auto|]; split; auto).
    assert (CALL : forall c o1 o2 r v' t, legal c -> allowed v c -> room v o1 o2 -> settled v c -> execF c o1 o2 v r v' t ->
      (exists x, fastep (Off P mask) (ECall c r) x /\ FSim v' x) /\ TRo (fun X => fastep (Off P mask) (ECrash (Some c)) (Up (Umt X TRANSACT_DEFAULT))) t).
    { intros c o1 o2 r v1 t LG AL RM SE EX. destruct (isformat c) as [->|NF].
      { destruct AL as [AL|AL]; [congruence|]. destruct (umt_format o1 o2 v P mask r v1 t MN RS AL HD0 MK RM EX) as (F & T). split.
        - destruct F as [(_ & -> & S)|(-> & F)]; [exists (Up (Umt (Some Fempty) mask)); split; [apply O_format|exact S]|exists (Off (reformat P) mask); split; [apply O_formatio|exact F]].
        - eapply Forall_impl; [|exact T]. intros sn Hsn d Hd d1 L. destruct (Hsn d Hd d1 L) as (Y & PY & MY). exists Y. split; auto. apply O_crashfmt; auto. }
      destruct (umt_cases c o1 o2 v r v1 t MN AL EX NF) as [E|(flags & -> & -> & -> & A1 & A2 & A3 & A4)].
      2:{ split; [|constructor]. exists (Off P mask). split; [apply O_mountio|]. cbn. rewrite A1, A2, A3, A4. auto. }
      assert (INV : modifies c = true \/ reads c = true \/ c = CTransact \/ c = CRollback \/ (exists m, c = CMaskSet m) \/ c = CMaskGet \/ c = CVolStat -> (r, v1, t) = (Err EINVAL, v, []) ->
        (exists x, fastep (Off P mask) (ECall c r) x /\ FSim v1 x) /\ TRo (fun X => fastep (Off P mask) (ECrash (Some c)) (Up (Umt X TRANSACT_DEFAULT))) t).
      { intros HC Q. injection Q as -> -> ->. split; [|constructor]. exists (Off P mask). split; [apply O_inv; auto|auto]. }
      assert (ASM : (modifies c = true \/ reads c = true \/ c = CTransact \/ c = CRollback \/ (exists m, c = CMaskSet m) \/ c = CMaskGet \/ c = CVolStat) \/ (exists fl, c = CMount fl)).
      { destruct c; first [congruence|right; eexists; reflexivity|left; left; reflexivity|left; right; left; reflexivity|left; do 2 right; left; reflexivity|
          left; do 3 right; left; reflexivity|left; do 4 right; left; eexists; reflexivity|left; do 5 right; left; reflexivity|left; do 6 right; reflexivity|exfalso; cbn in AL; congruence]. }
      destruct ASM as [HC|(fl & ->)].
      - apply INV; auto. rewrite <- E.
        clear - E MN HC. destruct HC as [HC|[HC|[->|[->|[(m & ->)|[->| ->]]]]]].
        + destruct c; try discriminate HC; cbn [FsVolume.exec]; unfold ounit, omap, pbind, FsVolume.RedCoreCreate, FsVolume.RedCoreLink, FsVolume.RedCoreUnlink, FsVolume.RedCoreRename, FsVolume.RedCoreFileWrite, FsVolume.RedCoreFileTruncate, FsVolume.autocommit, guard; rewrite MN; reflexivity.
        + destruct c; try discriminate HC; cbn [FsVolume.exec]; unfold ounit, omap, pbind, RedCoreLookup, RedCoreStat, RedCoreFileRead, RedCoreDirRead, RedCoreDirParent, FsVolume.mounted; rewrite MN; reflexivity.
        + cbn [FsVolume.exec]. unfold ounit, omap, pbind, FsVolume.RedCoreVolTransact, guard. now rewrite MN.
        + cbn [FsVolume.exec]. unfold ounit, omap, pbind, FsVolume.RedCoreVolRollback, guard. now rewrite MN.
        + cbn [FsVolume.exec]. unfold ounit, omap, pbind, RedCoreTransMaskSet. now rewrite MN.
        + cbn [FsVolume.exec]. unfold ounit, omap, pbind, RedCoreTransMaskGet. now rewrite MN.
        + cbn [FsVolume.exec]. unfold ounit, omap, pbind, RedCoreVolStat. now rewrite MN.
      - destruct (STB SE) as (X & PX & CX).
        assert (SS : Sim v (Umt X mask)) by (split; [auto|]; split; [auto|]; split; auto).
        destruct (unmounted_run g OK atom MOUNT_MASK TRANSACT_MASK TRANSACT_DEFAULT (CMount fl) o1 o2 v X mask LG AL RM SS) as (r' & v1' & t1' & E' & a' & AS & SS' & TT).
        rewrite E in E'. injection E' as <- <- <-. split.
        + assert (OFF : forall Y, P Y -> Sim v1 (Umt Y mask) -> FSim v1 (Off P mask)).
          { intros Y PY (S1 & S2 & S3 & S4). split; [auto|]. split; [auto|]. split; [auto|]. eapply (MS_DVo WF g OK); eauto. }
          inversion AS; subst; try (match goal with Q : _ \/ _ |- _ => exfalso; destruct Q as [Q|[Q|[Q|[Q|[(? & Q)|[Q|Q]]]]]]; discriminate Q end).
          * eexists; split; [eapply O_mount; eauto|exact SS'].
          * exists (Off P (v_mask v)). split; [apply O_mountinv; auto|eapply OFF; eauto].
          * exists (Off P (v_mask v)). split; [apply O_mountio|eapply OFF; eauto].
        + eapply Forall_impl; [|exact TT]. intros sn Hsn d Hd d1 L. destruct (Hsn d Hd d1 L) as (Y & (AY & _) & MY). exists Y. split; auto.
          apply O_crash. inversion AY; subst. match goal with Q : _ = _ \/ _ |- _ => destruct Q as [->|[Q _]]; [auto|discriminate Q] end. }
    inversion H as [v0 c o1 o2 r v1 t LG AL RM SE EX|v0 c o1 o2 r v1 t sn d d' LG AL RM SE EX IN HD LO|v0 d d' MH LO|v0 MN' ST|v0 d seq MN' MH SQ]; subst; clear H.
    + apply (CALL c o1 o2 r v' t LG AL RM SE EX).
    + destruct (CALL c o1 o2 r v1 t LG AL RM SE EX) as (_ & T). unfold FsFormat.TRo in T. rewrite Forall_forall in T. destruct (T sn IN d HD d' LO) as (X & HX & MX').
      exists (Up (Umt X TRANSACT_DEFAULT)). split; [exact HX|apply boot_sim; auto].
    + unfold dirty in MH. rewrite MN in MH. destruct HD0 as (HC & _). destruct (HC d') as (X & PX & CX); [eapply mayhap_none_lose; eauto|].
      exists (Up (Umt X TRANSACT_DEFAULT)). split; [apply O_crash; auto|]. apply boot_sim; auto.
    + destruct (STB ST) as (X & PX & CX). exists (Up (Umt X TRANSACT_DEFAULT)). split; [apply O_crash; auto|]. apply boot_sim; auto.
    + congruence.
Qed.

Theorem fsteps_sim v t v' : fsteps v t v' -> forall x, FSim v x -> exists x', fasteps x t x' /\ FSim v' x'.
Proof.
  induction 1 as [v|v e v1 t v2 S1 _ IH|v v1 t v2 S1 _ IH]; intros x HS.
  - exists x. split; [constructor|auto].
  - destruct (fstep_sim _ _ _ _ HS S1) as (x1 & A1 & HS1). destruct (IH x1 HS1) as (x2 & A2 & HS2). exists x2. split; auto. econstructor; eauto.
  - apply IH. exact (fstep_sim _ _ _ _ HS S1).
Qed.

(** * The runs without failures are among those with failures *)
Lemma fomap_incl {A} (f : A -> out) (mF : FPV A) (m : PV A) v r v' t : (forall r v' t, m v = (r, v', t) -> mF v r v' t) -> omap f m v = (r, v', t) -> fomap f mF v r v' t.
Proof using.
  clear. intros H. unfold omap, pbind. destruct (m v) as [[r1 v1] t1] eqn:E. specialize (H _ _ _ eq_refl). destruct r1 as [a|e]; intros K; injection K as <- <- <-.
  - exists (Ok a), v1, t1. split; auto. exists []. split; auto. reflexivity.
  - exists (Err e), v1, t1. auto.
Qed.
Lemma exec_incl c o1 o2 v a r v' t : Sim v a -> legal c -> allowed v c -> room v o1 o2 -> exec c o1 o2 v = (r, v', t) -> execF c o1 o2 v r v' t.
Proof.
  intros HS LG AL RM. assert (MD : (v_mnt v = true /\ exists W C, VI g atom v W C) \/ v_mnt v = false).
  { destruct a as [W C ro mask|X mask]; [left|right; apply HS]. destruct HS as (HV & _). split; eauto. destruct HV as (? & ? & X); apply X. }
  unfold room in RM.
  assert (MOD : forall A (bad : res A -> Prop) (m : M st A) F f R E ev, OPS g False m R E -> fltw bad m F -> omap f (FsVolume.autocommit ev m o1 o2) v = (r, v', t) -> fomap f (autocommit atom ev F o1 o2) v r v' t).
  { intros A bad m F f R E ev HO (_ & HI & _). apply fomap_incl. intros r1 v1 t1 K. destruct MD as [(MN & W & C & HV)|MN].
    - eapply (autocommit_incl WF g OK); eauto. lia.
    - unfold FsVolume.autocommit, autocommit, guard, fguard in *. rewrite MN in *. cbn [negb] in *. injection K as <- <- <-. auto. }
  assert (RDX : forall A (bad : res A -> Prop) (m : M st A) F f, fs_ bad m F -> omap f (FsVolume.mounted m) v = (r, v', t) -> fomap f (mounted F) v r v' t).
  { intros A bad m F f (_ & HI & _). apply fomap_incl. intros r1 v1 t1 K. unfold FsVolume.mounted, mounted in *. destruct (v_mnt v); cbn [negb] in *.
    - eapply core_incl; eauto.
    - injection K as <- <- <-. auto. }
  destruct c; cbn [FltVolume.execF FsVolume.exec].
  - eapply MOD; [apply (ops_create g OK p nm dir LG)|apply c_Create].
  - eapply MOD; [apply (ops_link g OK p nm i LG)|apply c_Link].
  - eapply MOD; [apply (ops_unlink g OK p nm LG)|apply c_Unlink].
  - destruct LG as [L1 L2]. eapply MOD; [apply (ops_rename g OK sp sn dp dn L1 L2)|apply c_Rename].
  - eapply MOD; [apply (ops_write g OK i start len src)|apply c_Write].
  - eapply MOD; [apply (ops_truncate g OK i size)|apply c_Truncate].
  - eapply RDX. apply c_Lookup.
  - eapply RDX. apply c_Stat.
  - eapply RDX. apply c_FileRead.
  - eapply RDX. apply c_DirRead.
  - eapply RDX. apply c_DirParent.
  - apply fomap_incl. intros r1 v1 t1. unfold FsVolume.RedCoreVolTransact, FltVolume.RedCoreVolTransact, guard, fguard. destruct (negb (v_mnt v)); [intros K; injection K as <- <- <-; auto|].
    destruct (s_ro (v_s v)) eqn:RO; [intros K; injection K as <- <- <-; auto|]. apply transact_incl; auto.
  - apply fomap_incl. intros r1 v1 t1. unfold FsVolume.RedCoreVolRollback, FltVolume.RedCoreVolRollback, guard, fguard. destruct (negb (v_mnt v)); [intros K; injection K as <- <- <-; auto|].
    destruct (s_ro (v_s v)) eqn:RO; [intros K; injection K as <- <- <-; auto|]. left. auto.
  - auto.
  - auto.
  - auto.
  - apply fomap_incl. intros r1 v1 t1 K. left. auto.
  - apply fomap_incl. intros r1 v1 t1. unfold FsVolume.RedCoreVolUnmount, FltVolume.RedCoreVolUnmount, pbind.
    destruct (s_ro (v_s v)) eqn:RO; cbn [negb andb].
    + cbn. intros K. injection K as <- <- <-. exists (Ok tt), v, []. split; [reflexivity|]. exists []. split; reflexivity.
    + destruct (has (v_mask v) T_UMOUNT).
      * destruct (FsVolume.RedVolTransact o1 v) as [[r2 v2] t2] eqn:TT. pose proof (transact_incl atom _ _ _ _ _ RO TT) as TF.
        destruct r2 as [[]|e]; cbn; intros K; injection K as <- <- <-.
        -- exists (Ok tt), v2, t2. split; [exact TF|]. exists []. split; reflexivity.
        -- exists (Err e), v2, t2. split; [exact TF|]. auto.
      * cbn. intros K. injection K as <- <- <-. exists (Ok tt), v, []. split; [reflexivity|]. exists []. split; reflexivity.
  - apply fomap_incl. intros r1 v1 t1 K. destruct MD as [(MN & _)|MN].
    + revert K. unfold FsVolume.RedVolFormat, FltVolume.RedVolFormat, FsVolume.RedVolFormatWith, FltVolume.RedVolFormatWith. rewrite MN. intros K. injection K as <- <- <-. auto.
    + destruct a as [W C ro mask|X mask]; [destruct HS as ((? & ? & X) & _); pose proof (x_mnt _ _ _ _ _ _ _ X); congruence|]. destruct HS as (_ & RS & HM & MK).
      destruct AL as [AL|AL]; [congruence|]. apply (format_incl WF g OK atom std (FsVolume.MakeRoot g) (FltVolume.MakeRoot g) Fempty); auto.
      * apply MakeRootF.
      * apply Fempty_WF.
      * apply (MakeRoot_run g OK).
Qed.
Lemma Sim_stable v X mask : Sim v (Umt X mask) -> stable (v_d v).
Proof.
  intros (_ & _ & HM & _). destruct X as [C|]; cbn in HM; [|split; [|left]; destruct HM; congruence].
  destruct HM as (i & q & m & mq & (S1 & S2 & S3 & S4) & _ & M1 & M2 & _). split; [congruence|right]. rewrite (choose_older atom _ _ _ _ S1 S3), (choose_older atom _ _ _ _ S2 S4). reflexivity.
Qed.
Theorem step_fstep v e v' a : Sim v a -> step v e v' -> fstep v e v'.
Proof.
  intros HS H.
  assert (SE : forall c, allowed v c -> settled v c).
  { intros c AL. destruct a as [W C ro mask|X mask].
    - assert (MN : v_mnt v = true) by (destruct HS as ((? & ? & X) & _); apply X). destruct c; cbn in *; auto. congruence.
    - pose proof (Sim_stable _ _ _ HS). destruct c; cbn; auto. }
  inversion H as [v0 c o1 o2 r v1 t LG AL RM EX|v0 c o1 o2 r v1 t sn d d' LG AL RM EX IN HD LO|v0 d d' MH LO|v0 MN|v0 d seq MN MH SQ]; subst; clear H.
  - eapply F_call; eauto. eapply exec_incl; eauto.
  - eapply F_crash; eauto. eapply exec_incl; eauto.
  - eapply F_lost; eauto.
  - apply F_init; auto. destruct a as [W C ro mask|X mask]; [|eapply Sim_stable; eauto]. destruct HS as ((? & ? & X) & _). pose proof (x_mnt _ _ _ _ _ _ _ X). congruence.
  - apply F_back; auto.
Qed.
Theorem steps_fsteps v t v' : FsReach.steps g atom MOUNT_MASK TRANSACT_MASK TRANSACT_DEFAULT v t v' -> forall a, Sim v a -> fsteps v t v'.
Proof.
  induction 1 as [v|v e v1 t v2 S1 _ IH|v v1 t v2 S1 _ IH]; intros a HS.
  - constructor.
  - destruct (step_sim g OK atom MOUNT_MASK TRANSACT_MASK TRANSACT_DEFAULT _ _ _ _ HS S1) as (a1 & _ & HS1). econstructor; [eapply step_fstep; eauto|eauto].
  - eapply Fs_back; [eapply step_fstep; eauto|]. eapply IH. exact (step_sim g OK atom MOUNT_MASK TRANSACT_MASK TRANSACT_DEFAULT _ _ _ _ HS S1).
Qed.
End R.
