(** The model of the FSE API refines the specification machine of FseSpec.v. *)
From Verif Require Import Base Count FsState FsImap FsInode FsData FsTree FsImapProof FsInv FsStep FsBranch FsRead FsWrite FsVol FsVol2 FsVol3 FsVol4 FsWp FsDir FsDirP FsCore FsWr FsRo FsSpec FsSpecP FsCoreP FsCoreP2 FsCoreP3 FsCoreP4 FsCoreP5 FsMach FsVolume FsVolumeG FsFormat FsReach FseSpec FseVol.
Ltac Zify.zify_post_hook ::= idtac.

(** The files of an inode table. *)
Definition ffs_of (F : fs) : ffs := fun i => match F i with Some (AFile _ sz b) => Some (sz, b) | _ => None end.

Section R.
Variable g : cfg.
Hypothesis OK : cfg_ok g.
Set Default Proof Using "OK".
Notation FSV := (FSV g).
Notation MX := (INODE_SIZE_MAX g).
(** With the FSE API every inode is a file from the format on. *)
Definition good (F : fs) : Prop := forall i, if INODE_IS_VALID g i then exists nl sz b, F i = Some (AFile nl sz b) else F i = None.
Lemma good_upd F i nl sz b nl' sz' b' : good F -> F i = Some (AFile nl sz b) -> good (upd F i (Some (AFile nl' sz' b'))).
Proof using. clear. intros G E j. specialize (G j). unfold upd. destruct (N.eqb_spec j i) as [->|]; auto. destruct (INODE_IS_VALID g i); [eauto|congruence]. Qed.
Lemma good_file F i : good F -> ~ isdir F i.
Proof using. clear. intros G (p & sl & E). specialize (G i). destruct (INODE_IS_VALID g i); [destruct G as (? & ? & ? & G)|]; congruence. Qed.
Lemma good_none F i : good F -> F i = None -> ffs_of F i = None.
Proof using. clear. intros _ E. unfold ffs_of. now rewrite E. Qed.
Lemma bad_none F i e : good F -> bad_file F i e -> e = EBADF /\ ffs_of F i = None.
Proof using. clear. intros G [[-> E]|[-> E]]; [|destruct (good_file _ _ G E)]. split; auto. now apply good_none. Qed.
Lemma of_upd F i nl sz b : fset (ffs_of F) i sz b (ffs_of (upd F i (Some (AFile nl sz b)))).
Proof using. clear. unfold ffs_of. split; [now rewrite upd_same|]. intros j N. now rewrite upd_other. Qed.
Lemma of_file F i nl sz b : F i = Some (AFile nl sz b) -> ffs_of F i = Some (sz, b).
Proof using. clear. unfold ffs_of. now intros ->. Qed.
Lemma EBADF_0 (P : Prop) e (W : ffs) i : e = EBADF /\ W i = None -> e = EBADF /\ W i = None \/ P. Proof using. auto. Qed.

Notation OPS := (OPS good g).
Lemma fops_write i start len src : len <= INT32_MAX ->
  OPS False (CoreFileWrite g i start len src) (fun n F F' => fmod_ok MX (FWrite i start len src) (FNum n) (ffs_of F) (ffs_of F')) (fun F e => fmod_err MX (FWrite i start len src) (ffs_of F) e).
Proof.
  intros LL. split; [apply w_CoreFileWrite|]. intros C0 D0 F s HF W.
  assert (DE : (0 < len /\ start < MX) \/ ~ (0 < len /\ start < MX)) by (clear; lia). destruct DE as [[P Q]|NP].
  - destruct (core_write g OK C0 D0 F s i start len src HF P Q) as (r & s' & -> & X). destruct r as [n|e].
    + destruct X as (B & _ & F' & O & HF'). destruct O as (nl & sz & b & Fi & ->). eexists. split; [|split; [|exact HF']].
      * exists n. split; auto. split; auto. exists sz, b. split; [eapply of_file; eauto|]. destruct (N.eqb_spec len 0); [lia|]. split; auto. apply of_upd.
      * eapply good_upd; eauto.
    + destruct X as (HF' & [E|[-> _]]); right; (split; [|auto]); right; split; auto.
      right. left. now apply bad_none.
  - destruct (core_write0 g OK C0 D0 F s i start len src HF NP) as (r & s' & -> & HF' & X). destruct r as [n|e].
    + destruct X as (-> & -> & L & FI). exists F. split; [|split; auto]. destruct FI as (nl & sz & b & Fi).
      exists 0. split; auto. split; auto. exists sz, b. split; [eapply of_file; eauto|]. rewrite N.eqb_refl. split; auto. split; auto. intros j. auto.
    + right. split; auto. right. split; auto. destruct X as [X|X]; [|auto]. right. left. now apply bad_none.
Qed.
Lemma fops_truncate i size :
  OPS False (CoreFileTruncate g i size) (fun _ F F' => fmod_ok MX (FTruncate i size) FUnit (ffs_of F) (ffs_of F')) (fun F e => fmod_err MX (FTruncate i size) (ffs_of F) e).
Proof.
  split; [apply w_CoreFileTruncate|]. intros C0 D0 F s HF W. destruct (N.leb_spec size MX) as [L|L].
  - destruct (core_truncate g OK C0 D0 F s i size HF L) as (r & s' & -> & X). destruct r as [[]|e].
    + destruct X as (F' & O & HF'). destruct O as (nl & sz & b & Fi & ->). eexists. split; [|split; [|exact HF']].
      * split; auto. split; auto. exists sz, b. split; [eapply of_file; eauto|]. apply of_upd.
      * eapply good_upd; eauto.
    + destruct X as (HF' & [E|[-> _]]); right; (split; [|auto]); [right; left; now apply bad_none|left; auto].
  - destruct HF as (V & HV & HR). unfold CoreFileTruncate. rewrite (VOL_ro g OK C0 D0 _ _ _ _ HV).
    destruct (mount_file g OK C0 D0 false V F [] s i true HV HR (fun x => x)) as [(e & BF & RN)|(nl & sz & b & a & c & s2 & Fi & Va & Da & NL & SZ & BY & R2 & HV2 & CI2 & CD2 & CB2 & SS & _)].
    { unfold bind at 1. rewrite RN. right. split; [right; left; now apply bad_none|]. exists V; auto. }
    rewrite (bind_ok _ _ _ _ _ R2).
    destruct (VOL_use g OK C0 D0 (size <? i_size (c_i c)) _ _ _ HV2) as (s3 & R3 & HV3 & W3). rewrite (bind_ok _ _ _ _ _ R3).
    assert (D : CINODE_IS_MOUNTED g c = true).
    { destruct HV2 as (pm & _ & _ & Q & _). destruct (Q _ (or_introl eq_refl)) as (QM & _). exact (CM_mounted g OK _ _ QM). }
    assert (R4 : RedInodeDataTruncate g size (s3, c) = (Err EFBIG, (s3, c))).
    { unfold RedInodeDataTruncate, getc. unfold bind at 1. cbn [fst snd]. rewrite D. cbn [negb]. destruct (N.ltb_spec MX size); [reflexivity|lia]. }
    assert (R5 : runc (RedInodeDataTruncate g size) c s3 = (Ok (Err EFBIG, c), s3)) by (unfold runc; now rewrite R4).
    rewrite (bind_ok _ _ _ _ _ R5). cbv beta iota.
    destruct (VOL_unuse g OK C0 D0 _ _ _ _ HV3) as (s4 & R6 & HV4 & W4). rewrite (bind_ok _ _ _ _ _ R6).
    right. split; [right; right; auto|]. exists V. split; auto. eapply (VOL_nil g OK); exact HV4.
Qed.
Lemma fread_file i start len C0 D0 F s : FSV C0 D0 F s ->
  exists r, CoreFileRead g i start len s = (r, s) /\ (good F -> len <= INT32_MAX -> fread_ok (FRead i start len) (ffs_of F) (match r with Ok a => Ok (FData (fst a) (snd a)) | Err e => Err e end)).
Proof.
  intros HF. destruct (core_read g OK C0 D0 F s i start len HF) as (r & R & X). exists r. split; auto. intros G LL. destruct r as [[n f]|e]; cbn.
  - destruct X as (nl & sz & b & Fi & X). split; auto. exists sz, b. split; auto. eapply of_file; eauto.
  - right. split; auto. now apply bad_none.
Qed.
Lemma fsize_get i C0 D0 F s : FSV C0 D0 F s ->
  exists r, CoreFileSizeGet g i s = (r, s) /\ (good F -> fread_ok (FSizeGet i) (ffs_of F) (match r with Ok a => Ok (FNum a) | Err e => Err e end)).
Proof.
  intros (V & HV & HR). unfold CoreFileSizeGet.
  destruct (mount_file g OK C0 D0 false V F [] s i false HV HR (fun x => x)) as [(e & BF & RN)|(nl & sz & b & a & c & s2 & Fi & Va & Da & NL & SZ & BY & R2 & HV2 & CI2 & CD2 & CB2 & SS & _)].
  { exists (Err e). split; [unfold bind at 1; now rewrite RN|]. intros G. cbn. now apply bad_none. }
  rewrite (SS eq_refl) in *. rewrite (bind_ok _ _ _ _ _ R2). eexists. split; [reflexivity|]. intros G. cbn.
  destruct (VOL_V g OK _ _ _ _ _ _ _ _ HV2) as (a2 & Va2 & SZ2 & _). rewrite CI2 in Va2. assert (a2 = a) by congruence. subst a2.
  exists b. rewrite (of_file _ _ _ _ _ Fi). congruence.
Qed.
Lemma r_SizeGet i : rs (CoreFileSizeGet g i). Proof using. clear. unfold CoreFileSizeGet. rall. apply r_Mount. Qed.

(** * Format *)
Lemma w_FseCreate i : ws (FseInodeCreate g i).
Proof using. clear. pose proof (w_IsFree g). pose proof (w_Wr g). pose proof (w_BitSet g). unfold FseInodeCreate. wall; auto. Qed.
Lemma w_FseLoop n : forall i r, ws (FseMakeLoop g n i r).
Proof.
  induction n as [|n IH]; intros i r; cbn [FseMakeLoop]; [apply wok_lift_res|].
  apply wok_bind; [|intros; apply IH]. apply wok_attempt. apply wok_bind; [apply w_FseCreate|intros; apply wok_ret].
Qed.
(** Files 2, ..., n + 1. *)
Definition FnewN (n : N) : fs := fun i => if (2 <=? i) && (i <? 2 + n) then Some (AFile 1 0 (fun _ => 0)) else None.
Lemma FnewN_S n i : FnewN (n + 1) i = upd (FnewN n) (2 + n) (Some (AFile 1 0 (fun _ => 0))) i.
Proof using.
  clear. unfold FnewN, upd. destruct (N.eqb_spec i (2 + n)) as [->|NE].
  - destruct (N.leb_spec 2 (2 + n)); [|lia]. destruct (N.ltb_spec (2 + n) (2 + (n + 1))); [reflexivity|lia].
  - destruct (N.leb_spec 2 i); cbn [andb]; auto. destruct (N.ltb_spec i (2 + n)), (N.ltb_spec i (2 + (n + 1))); auto; lia.
Qed.
Lemma FseCreate_ok C0 D n s : FSV C0 D (FnewN n) s -> n < ICNT g ->
  exists c s', FseInodeCreate g (2 + n) s = (Ok c, s') /\ FSV C0 D (FnewN (n + 1)) s' /\ s_w s' <> s_w s.
Proof.
  intros (V & HV & HR) L.
  assert (Fi : FnewN n (2 + n) = None). { unfold FnewN. destruct (N.ltb_spec (2 + n) (2 + n)); [lia|]. now rewrite andb_false_r. }
  assert (Vi : INODE_IS_VALID g (2 + n) = true) by (apply valid_range; unfold ROOT, INODE_ROOTDIR; lia).
  assert (V2 : V (2 + n) = None) by (eapply (REP_none g OK); eauto).
  pose proof (VOL_lv g OK _ _ _ _ _ _ (2 + n) HV) as LV0. rewrite V2 in LV0.
  destruct (create_at g OK C0 D false V [] s (2 + n) INODE_INVALID false HV Vi V2) as (c & s2 & RC & HV2 & _).
  exists c, s2. split; [|split].
  - unfold FseInodeCreate. rewrite Vi. unfold bind at 1, bind at 1. rewrite (IsFree_ok g OK _ s Vi), LV0. cbn [negb]. exact RC.
  - eexists. split; [eapply (VOL_nil g OK); exact HV2|]. intros j. rewrite FnewN_S. apply (REP_upd g OK); auto. apply (RN_new g OK false 0).
  - intros E. pose proof (VOL_lv g OK _ _ _ _ _ _ (2 + n) HV2) as LV. rewrite upd_same in LV.
    unfold lv, cur in LV, LV0. rewrite E in LV. congruence.
Qed.
Lemma FseLoop_ok C0 D k : forall n s, FSV C0 D (FnewN n) s -> n + N.of_nat k = ICNT g ->
  exists s', FseMakeLoop g k (2 + n) (Ok tt) s = (Ok tt, s') /\ FSV C0 D (FnewN (ICNT g)) s'.
Proof.
  induction k as [|k IH]; intros n s HF E; cbn [FseMakeLoop].
  - exists s. split; [reflexivity|]. replace (ICNT g) with n by lia. exact HF.
  - destruct (FseCreate_ok C0 D n s HF ltac:(lia)) as (c & s1 & R & HF1 & _).
    destruct (IH (n + 1) s1 HF1 ltac:(lia)) as (s2 & R2 & HF2). exists s2. split; auto.
    assert (RA : attempt (_ <- FseInodeCreate g (2 + n) ;; ret tt) s = (Ok (Ok tt), s1)). { unfold attempt. now rewrite (bind_ok _ _ _ _ _ R). }
    rewrite (bind_ok _ _ _ _ _ RA). replace (2 + n + 1) with (2 + (n + 1)) by lia. exact R2.
Qed.
Lemma FnewN_good : good (FnewN (ICNT g)).
Proof using. clear. intros i. unfold INODE_IS_VALID, FnewN. change INODE_FIRST_VALID with 2. destruct (_ && _); eauto. Qed.
Lemma FnewN_of i : ffs_of (FnewN (ICNT g)) i = Fnew (ICNT g) i.
Proof using. clear. unfold ffs_of, FnewN, Fnew. destruct (_ && _); auto. Qed.

Variable atom : bool.
Notation CS := (CS good g atom).
Notation lose := (lose atom).
Notation MS := (MS good g atom).
Notation TRo := (TRo good g atom).
Notation VI := (VI good g atom).
Lemma FseMake_run D s : FSV (format_mr g) D (fun _ => None) s -> exists s', FseMake g s = (Ok tt, s') /\ FSV (format_mr g) D (FnewN (ICNT g)) s' /\ s_w s' <> s_w s.
Proof.
  intros HF.
  assert (HF0 : FSV (format_mr g) D (FnewN 0) s).
  { destruct HF as (V & HV & HR). exists V. split; auto. intros i. replace (FnewN 0 i) with (@None anode); [apply HR|].
    unfold FnewN. destruct (N.leb_spec 2 i), (N.ltb_spec i (2 + 0)); auto; lia. }
  destruct (FseLoop_ok _ _ (N.to_nat (ICNT g)) 0 s HF0 ltac:(lia)) as (s' & R & HF'). exists s'. split; [exact R|]. split; auto.
  intros E. destruct HF as (V & HV & HR), HF' as (V' & HV' & HR').
  pose proof (VOL_lv g OK _ _ _ _ _ _ 2 HV) as L. pose proof (VOL_lv g OK _ _ _ _ _ _ 2 HV') as L'.
  rewrite (REP_none g OK _ _ 2 HR eq_refl) in L. specialize (HR' 2).
  assert (E2 : FnewN (ICNT g) 2 = Some (AFile 1 0 (fun _ => 0))). { unfold FnewN. destruct OK. destruct (N.ltb_spec 2 (2 + ICNT g)); [reflexivity|lia]. }
  rewrite E2 in HR'. destruct (V' 2) as [a|]; [|cbn in HR'; tauto]. unfold lv, cur in L, L'. rewrite E in L'. congruence.
Qed.
Lemma fse_format_ok v X o1 o2 : v_mnt v = false -> s_res (v_s v) = false -> s_afree (v_s v) = 0 -> MS (v_d v) X ->
  v_seq v + fst o1 + fst o2 + 3 <= UINT64_MAX ->
  exists v' t, RedVolFormatWith g (FseMake g) o1 o2 v = (Ok tt, v', t) /\ v_mnt v' = false /\ s_res (v_s v') = false /\ MS (v_d v') (Some (FnewN (ICNT g))) /\ v_mask v' = v_mask v /\ s_afree (v_s v') = 0 /\
    TRo (fun Y => Y = X \/ Y = None \/ Y = Some (FnewN (ICNT g))) t.
Proof.
  apply (format_gen good g OK atom (FseMake g) (FnewN (ICNT g))).
  - apply w_FseLoop.
  - apply FnewN_good.
  - apply FseMake_run.
Qed.

(** * Steps of the model *)
Variable MOUNT_MASK TRANSACT_MASK TRANSACT_DEFAULT : N.
Set Default Proof Using "All".
Notation fexec := (fexec g atom MOUNT_MASK TRANSACT_MASK).
Notation boot := (boot TRANSACT_DEFAULT).
(** Formatting while the counter of almost free blocks is not zero produces a wrong free count (see C36). *)
Definition fallowed (v : vol) (c : fcall) : Prop := match c with FFormat => v_mnt v = true \/ s_afree (v_s v) = 0 | _ => True end.

Inductive fstep : vol -> option fevent -> vol -> Prop :=
| FS_call v c o1 o2 r v' t : fallowed v c -> room v o1 o2 -> fexec c o1 o2 v = (r, v', t) ->
    fstep v (Some (FECall c r)) v'
| FS_crash v c o1 o2 r v' t sn d d' : fallowed v c -> room v o1 o2 -> fexec c o1 o2 v = (r, v', t) ->
    In sn t -> sn d -> lose d d' -> fstep v (Some (FECrash (Some c))) (boot d')
| FS_lost v d d' : mayhap (dirty v) (v_d v) d -> lose d d' -> fstep v (Some (FECrash None)) (boot d')
| FS_init v : v_mnt v = false -> fstep v (Some (FECrash None)) (boot (v_d v))   (* RedFseUninit and RedFseInit *)
| FS_back v d seq : v_mnt v = true -> mayhap (s_wr (v_s v)) (v_d v) d -> v_seq v <= seq <= UINT64_MAX ->
    fstep v None (vset_seq seq (vset_d d v)).
Inductive fsteps : vol -> list fevent -> vol -> Prop :=
| FSs_nil v : fsteps v [] v
| FSs_cons v e v1 t v2 : fstep v (Some e) v1 -> fsteps v1 t v2 -> fsteps v (e :: t) v2
| FSs_back v v1 t v2 : fstep v None v1 -> fsteps v1 t v2 -> fsteps v t v2.

(** * Simulation *)
Notation fastep := (fastep MX (ICNT g) TRANSACT_MASK TRANSACT_DEFAULT).
Notation fasteps := (fasteps MX (ICNT g) TRANSACT_MASK TRANSACT_DEFAULT).
Definition Z (F : fs) (W : ffs) : Prop := forall i, ffs_of F i = W i.
Definition Zo (X : option fs) (Y : option ffs) : Prop := match X, Y with Some F, Some W => Z F W | None, None => True | _, _ => False end.
Definition FSim (v : vol) (a : fast) : Prop :=
  match a with
  | FM W C mask => exists F G, VI v F G /\ Z F W /\ Z G C /\ s_ro (v_s v) = false /\ v_mask v = mask
  | FU X mask => exists Y, v_mnt v = false /\ s_res (v_s v) = false /\ MS (v_d v) Y /\ Zo Y X /\ v_mask v = mask
  end.
Definition facom (a : fast) : option ffs := match a with FM _ C _ => Some C | FU C _ => C end.
(** The possible committed states after a power loss during a call that leads from [a] to [a']: see FsReach.crash_to. *)
Definition fcrash_to (a a' : fast) (c : fcall) (X : option ffs) : Prop :=
  X = facom a \/ X = facom a' \/
  fmodifies c = true /\ match a with FM W _ mask => has mask T_VOLFULL = true /\ X = Some W | FU _ _ => False end \/ c = FFormat /\ X = None.
Definition fcall_ok (c : fcall) (r : res fout) (v' : vol) (t : list snap) (a : fast) : Prop :=
  exists a', fastep a (FECall c r) a' /\ FSim v' a' /\
  TRo (fun Y => exists X, Zo Y X /\ fastep a (FECrash (Some c)) (FU X TRANSACT_DEFAULT) /\ fcrash_to a a' c X) t.

Lemma fmod_okZ c r F F' W : Z F W -> fmod_ok MX c r (ffs_of F) (ffs_of F') -> fmod_ok MX c r W (ffs_of F').
Proof using.
  clear. intros ZW. destruct c; cbn; try tauto.
  - intros (n & -> & L & sz & b & E & X). exists n. split; auto. split; auto. exists sz, b. split; [now rewrite <- ZW|]. destruct (len =? 0).
    + destruct X as (A & B & D). repeat split; auto. intros j. rewrite <- ZW. apply D.
    + destruct X as (A & B & D). repeat split; try tauto. intros j N. rewrite <- ZW. auto.
  - intros (-> & L & sz & b & E & A & B). split; auto. split; auto. exists sz, b. split; [now rewrite <- ZW|]. split; auto. intros j N. rewrite <- ZW. auto.
Qed.
Lemma fmod_errZ c F W e : Z F W -> fmod_err MX c (ffs_of F) e -> fmod_err MX c W e.
Proof using. clear. intros ZW. destruct c; cbn; try tauto; rewrite ZW; tauto. Qed.
Lemma fread_okZ c F W r : Z F W -> fread_ok c (ffs_of F) r -> fread_ok c W r.
Proof using. clear. intros ZW. destruct c; cbn; try tauto; rewrite ZW; tauto. Qed.
Lemma Zo_some F W : Z F W -> Zo (Some F) (Some W). Proof using. auto. Qed.
Lemma Z_refl F : Z F (ffs_of F). Proof using. intros i. reflexivity. Qed.

Lemma fmod_run {A} (m : M st A) c f o1 o2 v W C mask :
  OPS False m (fun x F F' => fmod_ok MX c (f x) (ffs_of F) (ffs_of F')) (fun F e => fmod_err MX c (ffs_of F) e) -> fmodifies c = true -> FSim v (FM W C mask) -> room v o1 o2 ->
  exists r v' t, fmap_ f (autocommit (fevbit c) m o1 o2) v = (r, v', t) /\ fcall_ok c r v' t (FM W C mask).
Proof.
  intros HO MC (F & G & HV & ZF & ZG & RO & MK) RM. unfold room in RM.
  destruct (autocommit_ok good g OK atom False m _ _ (fevbit c) o1 o2 v F G HO HV RO ltac:(lia)) as (r & v' & t & R & MK' & X).
  unfold fmap_, pbind, pret. rewrite R.
  assert (X0 : exists t', (match r with Ok a => (Ok (f a), v', t ++ []) | Err e => (Err e, v', t) end) =
     ((match r with Ok a => Ok (f a) | Err e => Err e end), v', t') /\ (forall P, TRo P t -> TRo P t')).
  { destruct r; eexists; (split; [reflexivity|]); intros P HP; auto. rewrite app_nil_r. auto. }
  destruct X0 as (t' & -> & HT'). eexists. eexists. eexists. split; [reflexivity|].
  destruct X as [[[] _]|(RO' & W' & Cm & C' & HV' & HC & HT & HR)]. rewrite MK in *.
  assert (ZM : exists Cm', Z Cm Cm' /\ fretry mask W C Cm').
  { destruct HC as [->|[HC ->]]; [exists C|exists W]; split; auto; [left; auto|right; auto]. }
  destruct ZM as (Cm' & ZM & RT).
  assert (CM : forall a', fcrash_to (FM W C mask) a' c (Some Cm')).
  { intros a'. unfold fcrash_to. destruct RT as [->|[RT ->]]; cbn [facom]; auto. right. right. left. auto. }
  destruct r as [a|e].
  - destruct HR as [HR ->]. exists (FM (ffs_of W') (if has mask (fevbit c) then ffs_of W' else Cm') mask). split; [apply F_ok; auto; eapply fmod_okZ; eauto|]. split.
    + exists W'. eexists. split; [exact HV'|]. split; [apply Z_refl|]. split; [|auto]. destruct (has mask (fevbit c)); auto. apply Z_refl.
    + apply HT'. eapply TR_TRo; [|exact HT]. intros X HX. cbv beta. destruct HX as [->|[->|((x & E) & HE & ->)]].
      * exists (Some C). split; auto. split; [apply F_crash; auto|left; auto].
      * exists (Some Cm'). split; auto. split; auto. apply F_crash. right. left. auto.
      * exists (Some (ffs_of W')). split; [apply Z_refl|]. split; [|right; left; cbn [facom]; now rewrite HE].
        apply F_crash. right. left. split; auto. right. split; auto. exists (f a). eapply fmod_okZ; eauto.
  - destruct HR as (HE & -> & ->). exists (FM W Cm' mask). split; [apply F_err; auto; eapply fmod_errZ; eauto|]. split.
    + exists F, Cm. auto.
    + apply HT'. eapply TR_TRo; [|exact HT]. intros X HX. cbv beta. destruct HX as [->|[->|((x & E) & _)]]; [| |discriminate].
      * exists (Some C). split; auto. split; [apply F_crash; auto|left; auto].
      * exists (Some Cm'). split; auto. split; auto. apply F_crash. right. left. auto.
Qed.
Lemma fread_run {A} (m : M st A) c f v W C mask : rs m -> freads c = true ->
  (forall C0 D0 F s, FSV C0 D0 F s -> exists r, m s = (r, s) /\ (good F -> fread_ok c (ffs_of F) (match r with Ok a => Ok (f a) | Err e => Err e end))) ->
  FSim v (FM W C mask) ->
  exists r t, fmap_ f (mounted m) v = (r, v, t) /\ fcall_ok c r v t (FM W C mask).
Proof.
  intros HR RC H HS. pose proof HS as (F & G & HV & ZF & ZG & RO & MK).
  destruct (read_run good g OK atom m (fun r F => good F -> fread_ok c (ffs_of F) (match r with Ok a => Ok (f a) | Err e => Err e end)) v F G HR H HV) as (r & R & Q).
  assert (GF : good F) by (destruct HV as (? & ? & X); exact (x_WF _ _ _ _ _ _ _ _ X)). specialize (Q GF). apply (fread_okZ _ _ _ _ ZF) in Q.
  unfold fmap_, pbind, pret. rewrite R.
  assert (T0 : TRo (fun Y => exists X, Zo Y X /\ fastep (FM W C mask) (FECrash (Some c)) (FU X TRANSACT_DEFAULT) /\ fcrash_to (FM W C mask) (FM W C mask) c X) [mayhap (s_wr (v_s v)) (v_d v)]).
  { eapply (TR_TRo good g atom (eq G)); [|eapply (back_TR good g OK atom v F G); eauto]. intros X <-. exists (Some C). split; auto. split; [apply F_crash; auto|left; auto]. }
  destruct r as [a|e]; eexists; eexists; (split; [reflexivity|]);
    (exists (FM W C mask); split; [apply F_read; auto|split; [auto|try rewrite app_nil_r; exact T0]]).
Qed.

Lemma fmounted_run c o1 o2 v W C mask : room v o1 o2 -> FSim v (FM W C mask) ->
  exists r v' t, fexec c o1 o2 v = (r, v', t) /\ fcall_ok c r v' t (FM W C mask).
Proof.
  intros RM HS. pose proof HS as (F & G & HV & ZF & ZG & RO & MK). assert (MN : v_mnt v = true) by (destruct HV as (? & ? & X); apply X).
  assert (TN : forall P, TRo P []) by (intros; constructor).
  destruct c; cbn [FseVol.fexec].
  - rewrite MN. cbn [negb]. exists (Ok FUnit), v, []. split; auto. exists (FM W C mask). split; [apply F_mounted|auto].
  - rewrite MN. destruct (unmount_ok good g OK atom v F G o1 HV ltac:(unfold room in RM; lia)) as (v' & t & R & MK' & (U1 & U2 & U3) & HT).
    unfold fmap_, pbind, pret. rewrite R. eexists. eexists. eexists. split; [reflexivity|]. rewrite RO, MK in *. cbn [negb andb] in *.
    eexists. split; [apply F_unmount|]. split.
    + exists (Some (if has mask T_UMOUNT then F else G)). split; [exact U1|]. split; [exact U3|]. split; [cbn [FsFormat.MS]; exact U2|]. split; [destruct (has mask T_UMOUNT); auto|auto].
    + rewrite app_nil_r. eapply TR_TRo; [|exact HT]. intros X HX. cbv beta. destruct HX as [->|[HX ->]]; [exists (Some C)|exists (Some W)]; (split; [auto|split; [apply F_crash; auto 9|]]).
      * left; auto.
      * right. left. cbn [facom]. now rewrite HX.
  - unfold fmap_, pbind, RedVolFormatWith. rewrite MN. eexists. eexists. eexists. split; [reflexivity|].
    exists (FM W C mask). split; [apply F_formatbusy|auto].
  - destruct (N.ltb_spec INT32_MAX len) as [L|L].
    + exists (Err EINVAL), v, []. split; auto. exists (FM W C mask). split; [apply F_read; [reflexivity|cbn; auto]|auto].
    + destruct (fread_run (CoreFileRead g i off len) (FRead i off len) (fun x => FData (fst x) (snd x)) v W C mask (r_CoreFileRead g i off len) eq_refl) as (r & t & R & X); eauto 6.
      intros C0 D0 F0 s HF. destruct (fread_file i off len C0 D0 F0 s HF) as (r & R & X). eauto.
  - destruct (N.ltb_spec INT32_MAX len) as [L|L].
    + exists (Err EINVAL), v, []. split; auto. exists (FM W C mask). split; [apply F_err; [reflexivity|cbn; auto|left; auto]|auto].
    + apply (fmod_run (CoreFileWrite g i off len src) (FWrite i off len src) FNum o1 o2 v W C mask (fops_write i off len src L) eq_refl HS RM).
  - apply (fmod_run (CoreFileTruncate g i size) (FTruncate i size) (fun _ => FUnit) o1 o2 v W C mask (fops_truncate i size) eq_refl HS RM).
  - destruct (fread_run (CoreFileSizeGet g i) (FSizeGet i) FNum v W C mask (r_SizeGet i) eq_refl) as (r & t & R & X); eauto 6.
    intros C0 D0 F0 s HF. destruct (fsize_get i C0 D0 F0 s HF) as (r & R & X). eauto.
  - unfold fmap_, pbind, RedCoreTransMaskSet, pret. rewrite MN. cbn [negb orb].
    destruct (N.eqb_spec (N.land m TRANSACT_MASK) m) as [E|E]; cbn [negb].
    + rewrite RO. eexists. eexists. eexists. split; [reflexivity|]. exists (FM W C m). split; [apply F_maskset; auto|]. split; [|apply TN].
      exists F, G. split; [|auto]. destruct HV as (C0 & D0 & [X1 X2 X3 X4 X5 X6 X7 X8 X9 X10]). exists C0, D0. constructor; auto.
    + eexists. eexists. eexists. split; [reflexivity|]. exists (FM W C mask). split; [apply F_maskinv; auto|auto].
  - unfold fmap_, pbind, RedCoreTransMaskGet, pret. rewrite MN. cbn [negb].
    eexists. eexists. eexists. split; [reflexivity|]. exists (FM W C mask). split; [rewrite MK; apply F_maskget|auto].
  - unfold fmap_, RedCoreVolTransact, pbind at 1, guard. rewrite MN, RO. cbn [negb].
    destruct (transact_ok good g OK atom v F G o1 (fun X => X = G \/ X = F) HV ltac:(unfold room in RM; lia) (or_introl eq_refl) (or_intror eq_refl)) as (v' & t & R & HV' & RO' & MK' & HT & _).
    rewrite R. eexists. eexists. eexists. split; [reflexivity|].
    exists (FM W W mask). split; [apply F_transact|]. split; [exists F, F; repeat split; auto; congruence|].
    rewrite app_nil_r. eapply TR_TRo; [|exact HT]. intros X HX. cbv beta. destruct HX as [->| ->]; [exists (Some C)|exists (Some W)]; (split; [auto|split; [apply F_crash; auto 9|]]); [left|right; left]; auto.
  - unfold fmap_, RedCoreVolRollback, pbind at 1, guard. rewrite MN, RO. cbn [negb].
    destruct (rollback_ok good g OK atom v F G HV RO) as (v' & R & HV' & RO' & MK' & _).
    rewrite R. eexists. eexists. eexists. split; [reflexivity|].
    exists (FM C C mask). split; [apply F_rollback|]. split; [|apply TN]. exists G, G. repeat split; auto; congruence.
Qed.

Lemma funmounted_run c o1 o2 v X mask : fallowed v c -> room v o1 o2 -> FSim v (FU X mask) ->
  exists r v' t, fexec c o1 o2 v = (r, v', t) /\ fcall_ok c r v' t (FU X mask).
Proof.
  intros AL RM HS. pose proof HS as (Y & MN & RS & HM & ZY & MK).
  assert (TN : forall P, TRo P []) by (intros; constructor).
  assert (INV : (fmodifies c = true \/ freads c = true \/ c = FTransact \/ c = FRollback \/ (exists m, c = FMaskSet m) \/ c = FMaskGet) ->
     fcall_ok c (Err EINVAL) v [] (FU X mask)).
  { intros HC. exists (FU X mask). split; [apply F_umt; auto|auto]. }
  assert (GG : forall B (m : PV B) (f : B -> fout), fmap_ f (guard _ m) v = (Err EINVAL, v, [])).
  { intros. unfold fmap_, pbind, guard. now rewrite MN. }
  assert (GM : forall B (m : M st B) (f : B -> fout), fmap_ f (mounted m) v = (Err EINVAL, v, [])).
  { intros. unfold fmap_, pbind, mounted. now rewrite MN. }
  destruct c; cbn [FseVol.fexec];
    try (exists (Err EINVAL), v, []; split; [|apply INV; cbn; eauto 8]; try destruct (INT32_MAX <? len); try reflexivity; solve [apply GG | apply GM]).
  - rewrite MN. cbn [negb]. unfold fmap_, RedCoreVolMount.
    assert (E0 : N.land (MOUNT_DEFAULT MOUNT_MASK) MOUNT_MASK = MOUNT_DEFAULT MOUNT_MASK).
    { unfold MOUNT_DEFAULT. now rewrite <- N.land_assoc, N.land_diag. }
    rewrite E0, N.eqb_refl. cbn [negb].
    assert (E1 : negb (N.land (MOUNT_DEFAULT MOUNT_MASK) RED_MOUNT_READONLY =? 0) = false).
    { unfold MOUNT_DEFAULT. rewrite <- N.land_assoc, (N.land_comm MOUNT_MASK), N.land_assoc. reflexivity. }
    rewrite E1. destruct Y as [G|]; cbn [FsFormat.MS] in HM.
    + destruct X as [C|]; [|destruct ZY]. destruct (mount_ok good g OK atom G v false HM) as (v' & R & HV & RO & MK' & _).
      unfold pbind at 1. rewrite R. eexists. eexists. eexists. split; [reflexivity|]. eexists. split; [apply F_mount|]. split; [|apply TN]. exists G, G. repeat split; auto. congruence.
    + destruct X as [C|]; [destruct ZY|]. destruct HM as [H1 H2]. unfold pbind, RedVolMountMaster. rewrite H1. eexists. eexists. eexists. split; [reflexivity|].
      exists (FU None mask). split; [apply F_mountblank|]. split; [|apply TN]. exists None. cbn. auto.
  - rewrite MN. exists (Ok FUnit), v, []. split; auto. exists (FU X mask). split; [apply F_unmounted|auto].
  - cbn in AL. destruct AL as [AL|AF]; [congruence|].
    destruct (fse_format_ok v Y o1 o2 MN RS AF HM RM) as (v' & t & R & A1 & A2 & A3 & A4 & A5 & HT). unfold fmap_, pbind, pret. rewrite R.
    eexists. eexists. eexists. split; [reflexivity|].
    assert (ZN : Zo (Some (FnewN (ICNT g))) (Some (Fnew (ICNT g)))) by (intros i; apply FnewN_of).
    exists (FU (Some (Fnew (ICNT g))) mask). split; [apply F_format|]. split.
    + eexists. repeat split; eauto. congruence.
    + rewrite app_nil_r. eapply Forall_impl; [|exact HT]. intros sn H d Hd d' L. destruct (H d Hd d' L) as (Y' & HY & M). exists Y'. split; auto.
      destruct HY as [->|[->| ->]]; [exists X|exists None|eexists; split; [exact ZN|]]; try (split; [exact ZY || exact I|]); (split; [apply F_crashumt; auto|unfold fcrash_to; cbn [facom]; auto 7]).
  - exists (Err EINVAL), v, []. split; [|apply INV; eauto 8]. unfold fmap_, pbind, RedCoreTransMaskSet. now rewrite MN.
  - exists (Err EINVAL), v, []. split; [|apply INV; eauto 8]. unfold fmap_, pbind, RedCoreTransMaskGet. now rewrite MN.
Qed.

Lemma fboot_sim d Y X : MS d Y -> Zo Y X -> FSim (boot d) (FU X TRANSACT_DEFAULT).
Proof. intros H Z1. exists Y. repeat split; auto. Qed.

Lemma fcall_run c o1 o2 v a : fallowed v c -> room v o1 o2 -> FSim v a -> exists r v' t, fexec c o1 o2 v = (r, v', t) /\ fcall_ok c r v' t a.
Proof. intros AL RM HS. destruct a; [apply fmounted_run|apply funmounted_run]; auto. Qed.

Theorem fstep_sim v e v' a : FSim v a -> fstep v e v' ->
  match e with Some e => exists a', fastep a e a' /\ FSim v' a' | None => FSim v' a end.
Proof.
  intros HS H. inversion H as [v0 c o1 o2 r v1 t AL RM EX|v0 c o1 o2 r v1 t sn d d' AL RM EX IN HD LO|v0 d d' MH LO|v0 MN|v0 d seq MN MH SQ]; subst; clear H.
  - destruct (fcall_run c o1 o2 v a AL RM HS) as (r' & v'' & t' & EX' & a' & X & Y & _). rewrite EX in EX'. injection EX' as <- <- <-. eauto.
  - destruct (fcall_run c o1 o2 v a AL RM HS) as (r' & v'' & t' & EX' & a' & _ & _ & X). rewrite EX in EX'. injection EX' as <- <- <-.
    unfold FsFormat.TRo in X. rewrite Forall_forall in X. destruct (X sn IN d HD d' LO) as (Y & (X' & ZX & AX & _) & MY). exists (FU X' TRANSACT_DEFAULT). split; auto. eapply fboot_sim; eauto.
  - destruct a as [W C mask|X mask].
    + destruct HS as (F & G & HV & ZF & ZG & RO & MK). assert (MN : v_mnt v = true) by (destruct HV as (? & ? & X); apply X). unfold dirty in MH. rewrite MN in MH.
      exists (FU (Some C) TRANSACT_DEFAULT). split; [apply F_lost|]. apply (fboot_sim d' (Some G)); auto. apply (MS_lose good g OK atom d); auto. cbn [FsFormat.MS]. eapply (back_CS good g OK); eauto.
    + destruct HS as (Y & MN & RS & HM & ZY & MK). unfold dirty in MH. rewrite MN in MH. exists (FU X TRANSACT_DEFAULT). split; [apply F_lostumt|]. apply (fboot_sim d' Y); auto.
      apply (MS_lose good g OK atom d); auto. destruct Y as [C|]; cbn [FsFormat.MS] in *.
      * eapply (CS_mayhap good g OK); eauto. intros; discriminate.
      * destruct MH as (_ & _ & _ & -> & ->). auto.
  - destruct a as [W C mask|X mask]. { destruct HS as (F & G & HV & _). assert (v_mnt v = true) by (destruct HV as (? & ? & X); apply X). congruence. }
    destruct HS as (Y & _ & RS & HM & ZY & MK). exists (FU X TRANSACT_DEFAULT). split; [apply F_lostumt|]. eapply fboot_sim; eauto.
  - destruct a as [W C mask|X mask]; [|destruct HS as (Y & HS & _); congruence]. destruct HS as (F & G & HV & ZF & ZG & RO & MK). exists F, G. split; [|auto]. eapply (back_ok good g OK); eauto.
Qed.

(** Every history of the model is a history of the specification. *)
Theorem fsteps_sim v t v' : fsteps v t v' -> forall a, FSim v a -> exists a', fasteps a t a' /\ FSim v' a'.
Proof.
  induction 1 as [v|v e v1 t v2 S1 _ IH|v v1 t v2 S1 _ IH]; intros a HS.
  - exists a. split; [constructor|auto].
  - destruct (fstep_sim _ _ _ _ HS S1) as (a1 & A1 & HS1). destruct (IH a1 HS1) as (a2 & A2 & HS2). exists a2. split; auto. econstructor; eauto.
  - apply IH. exact (fstep_sim _ _ _ _ HS S1).
Qed.
End R.
