(** The volume model refines the specification machine of FsMach.v: every history of calls and power
    losses of the model is a history of the specification. *)
From Verif Require Import Base Count FsState FsImap FsInode FsData FsTree FsImapProof FsInv FsStep FsBranch FsRead FsWrite FsVol FsVol2 FsVol3 FsVol4 FsWp FsDir FsDirP FsCore FsWr FsRo FsSpec FsSpecP FsCoreP FsCoreP2 FsCoreP3 FsCoreP4 FsCoreP5 FsMach FsVolume FsVolumeP.
Ltac Zify.zify_post_hook ::= idtac.

Section R.
Variable g : cfg.
Hypothesis OK : cfg_ok g.
Set Default Proof Using "OK".
Notation FSV := (FSV g).
Notation MX := (INODE_SIZE_MAX g).
Notation op_ok := (op_ok (NMAX g) MX (ICNT g)).
Notation op_err := (op_err (NMAX g) MX (ICNT g)).

Lemma valid_range i : INODE_IS_VALID g i = true <-> ROOT <= i < ROOT + ICNT g.
Proof using. clear. unfold INODE_IS_VALID. rewrite andb_true_iff, N.leb_le, N.ltb_lt. reflexivity. Qed.

Lemma ops_create p nm dir : nozero nm ->
  OPS g False (CoreCreate g p nm dir) (fun i F F' => op_ok (CCreate p nm dir) (ONum i) F F') (fun F e => op_err (CCreate p nm dir) F e).
Proof.
  intros NZ. split; [apply w_CoreCreate|]. intros C0 D0 F s HF W. destruct (core_create g OK C0 D0 F s p nm dir HF W NZ) as (r & s' & -> & X).
  destruct r as [i|e].
  - destruct X as (Vi & (L & _ & DT) & F' & O & HF'). exists F'. split; [|split; auto; eapply op_create_WF; eauto].
    exists i. split; auto. split; [now apply valid_range|]. split; [lia|]. auto.
  - destruct X as (HF' & E). right. split; auto. unfold create_err in E. unfold FsMach.op_err. 
    destruct E as [E|[[-> E]|E]]; [tauto| |tauto]. right. do 4 right. split; auto. intros i Hi. apply E. now apply valid_range.
Qed.
Lemma ops_link p nm i : nozero nm ->
  OPS g False (CoreLink g p nm i) (fun _ F F' => op_ok (CLink p nm i) OUnit F F') (fun F e => op_err (CLink p nm i) F e).
Proof.
  intros NZ. split; [apply w_CoreLink|]. intros C0 D0 F s HF W. destruct (core_link g OK C0 D0 F s p nm i HF W NZ) as (r & s' & -> & X).
  destruct r as [[]|e].
  - destruct X as ((L & _ & DT) & F' & O & HF'). exists F'. split; [|split; auto; eapply op_link_WF; eauto].
    cbn. repeat split; auto; lia.
  - destruct X as (HF' & E). right. split; auto. unfold link_err in E. unfold FsMach.op_err. tauto.
Qed.
Lemma ops_unlink p nm : nozero nm ->
  OPS g False (CoreUnlink g p nm) (fun _ F F' => op_ok (CUnlink p nm) OUnit F F') (fun F e => op_err (CUnlink p nm) F e).
Proof.
  intros NZ. split; [apply w_CoreUnlink|]. intros C0 D0 F s HF W. destruct (core_unlink g OK C0 D0 F s p nm HF W NZ) as (r & s' & -> & X).
  destruct r as [[]|e].
  - destruct X as (F' & O & HF'). exists F'. split; [|split; auto; eapply op_unlink_WF; eauto]. cbn. auto.
  - destruct X as (HF' & E). right. split; auto. unfold unlink_err in E. unfold FsMach.op_err. unfold no_entry. tauto.
Qed.
Lemma ops_rename sp sn dp dn : nozero sn -> nozero dn ->
  OPS g False (CoreRename g sp sn dp dn) (fun _ F F' => op_ok (CRename sp sn dp dn) OUnit F F') (fun F e => op_err (CRename sp sn dp dn) F e).
Proof.
  intros NS ND. split; [apply w_CoreRename|]. intros C0 D0 F s HF W. destruct (core_rename g OK C0 D0 F s sp sn dp dn HF W NS ND) as (r & s' & -> & X).
  destruct r as [[]|e].
  - destruct X as (F' & O & HF'). exists F'. split; [|split; auto; eapply op_rename_WF; eauto]. cbn. auto.
  - destruct X as [(HF' & E)|[-> HF']].
    + right. split; auto. unfold rename_err in E. unfold FsMach.op_err. unfold no_entry. tauto.
    + right. split; auto. left. auto.
Qed.
Lemma core_write0 C0 D0 F s i start len src : FSV C0 D0 F s -> ~ (0 < len /\ start < MX) ->
  exists r s', CoreFileWrite g i start len src s = (r, s') /\ FSV C0 D0 F s' /\
    match r with
    | Ok n => n = 0 /\ len = 0 /\ start <= MX /\ isfile F i
    | Err e => bad_file F i e \/ e = EFBIG /\ (MX < start \/ MX = start /\ 0 < len)
    end.
Proof.
  intros (V & HV & HR) HL. unfold CoreFileWrite. rewrite (VOL_ro g OK C0 D0 _ _ _ _ HV).
  destruct (mount_file g OK C0 D0 false V F [] s i true HV HR (fun x => x)) as [(e & BF & RN)|(nl & sz & b & a & c & s2 & Fi & Va & Da & NL & SZ & BY & R2 & HV2 & CI2 & CD2 & CB2 & SS & _)].
  { exists (Err e), s. split; [unfold bind at 1; now rewrite RN|]. split; [exists V; auto|auto]. }
  rewrite (bind_ok _ _ _ _ _ R2). unfold finish, RedInodeDataWrite.
  assert (D : CINODE_IS_DIRTY g c = true).
  { destruct HV2 as (pm & _ & _ & Q & _). destruct (Q _ (or_introl eq_refl)) as (QM & _). cbn in QM. rewrite (CM_isdirty g OK _ _ QM). exact CB2. }
  unfold getc. unfold bind at 1. cbn [fst snd]. rewrite D. cbn [negb].
  assert (FS2 : FSV C0 D0 F s2) by (exists V; split; auto; eapply (VOL_nil g OK); exact HV2).
  destruct (N.ltb_spec MX start) as [L|L]; cbn [orb].
  { exists (Err EFBIG), s2. split; auto. }
  destruct (N.eqb_spec start MX) as [E|E]; cbn [andb].
  - destruct (N.ltb_spec 0 len) as [P|P]. { exists (Err EFBIG), s2. split; auto. split; auto. }
    assert (len = 0) by lia. subst len. exists (Ok 0), s2. split; auto. split; auto. repeat split; auto. exists nl, sz, b; auto.
  - assert (len = 0) by lia. subst len. exists (Ok 0), s2. split; auto. split; auto. repeat split; auto. exists nl, sz, b; auto.
Qed.
Lemma ops_write i start len src :
  OPS g False (CoreFileWrite g i start len src) (fun n F F' => op_ok (CWrite i start len src) (ONum n) F F') (fun F e => op_err (CWrite i start len src) F e).
Proof.
  split; [apply w_CoreFileWrite|]. intros C0 D0 F s HF W.
  assert (DE : (0 < len /\ start < MX) \/ ~ (0 < len /\ start < MX)) by (clear; lia). destruct DE as [[P Q]|NP].
  - destruct (core_write g OK C0 D0 F s i start len src HF P Q) as (r & s' & -> & X). destruct r as [n|e].
    + destruct X as (B & _ & F' & O & HF'). exists F'. split; [|split; auto].
      * exists n. split; auto. destruct (N.eqb_spec len 0); [lia|]. auto.
      * destruct O as (nl & sz & b & Fi & ->). eapply file_WF; eauto.
    + destruct X as (HF' & [E|[-> _]]); right; (split; [|auto]).
      * right. left. exact E.
      * left; auto.
  - destruct (core_write0 C0 D0 F s i start len src HF NP) as (r & s' & -> & HF' & X). destruct r as [n|e].
    + destruct X as (-> & -> & L & FI). exists F. split; [|split; auto]. exists 0. split; auto. rewrite N.eqb_refl. auto.
    + right. split; auto. right. destruct X as [X|X]; [left; exact X|right; exact X].
Qed.
Lemma ops_truncate i size :
  OPS g False (CoreFileTruncate g i size) (fun _ F F' => op_ok (CTruncate i size) OUnit F F') (fun F e => op_err (CTruncate i size) F e).
Proof.
  split; [apply w_CoreFileTruncate|]. intros C0 D0 F s HF W. destruct (N.leb_spec size MX) as [L|L].
  - destruct (core_truncate g OK C0 D0 F s i size HF L) as (r & s' & -> & X). destruct r as [[]|e].
    + destruct X as (F' & O & HF'). exists F'. split; [cbn; auto|split; auto]. destruct O as (nl & sz & b & Fi & ->). eapply file_WF; eauto.
    + destruct X as (HF' & [E|[-> _]]); right; (split; [|auto]); [right; left; exact E|left; auto].
  - destruct HF as (V & HV & HR). unfold CoreFileTruncate. rewrite (VOL_ro g OK C0 D0 _ _ _ _ HV).
    destruct (mount_file g OK C0 D0 false V F [] s i true HV HR (fun x => x)) as [(e & BF & RN)|(nl & sz & b & a & c & s2 & Fi & Va & Da & NL & SZ & BY & R2 & HV2 & CI2 & CD2 & CB2 & SS & _)].
    { unfold bind at 1. rewrite RN. right. split; [right; left; exact BF|]. exists V; auto. }
    rewrite (bind_ok _ _ _ _ _ R2).
    destruct (VOL_use g OK C0 D0 (size <? i_size (c_i c)) _ _ _ HV2) as (s3 & R3 & HV3 & W3). rewrite (bind_ok _ _ _ _ _ R3).
    assert (D : CINODE_IS_MOUNTED g c = true).
    { destruct HV2 as (pm & _ & _ & Q & _). destruct (Q _ (or_introl eq_refl)) as (QM & _). exact (CM_mounted g OK _ _ QM). }
    assert (R4 : RedInodeDataTruncate g size (s3, c) = (Err EFBIG, (s3, c))).
    { unfold RedInodeDataTruncate, getc. unfold bind at 1. cbn [fst snd]. rewrite D. cbn [negb]. destruct (N.ltb_spec MX size); [reflexivity|lia]. }
    assert (R5 : runc (RedInodeDataTruncate g size) c s3 = (Ok (Err EFBIG, c), s3)) by (unfold runc; now rewrite R4).
    rewrite (bind_ok _ _ _ _ _ R5). cbv beta iota.
    destruct (VOL_unuse g OK C0 D0 _ _ _ _ HV3) as (s4 & R6 & HV4 & W4). rewrite (bind_ok _ _ _ _ _ R6).
    right. split; [right; right; auto|]. exists V. split; auto. eapply (VOL_nil g OK); exact HV4.
Qed.

Variable atom : bool.
Notation CS := (CS g atom).
Notation lose := (lose atom).
Notation MS := (MS g atom).
Notation CRo := (CRo g atom).
Notation TRo := (TRo g atom).
Lemma Fempty_WF : WF Fempty.
Proof using.
  clear. assert (E : forall i n, Fempty i = Some n -> i = ROOT /\ n = ADir 0 (fun _ => None)).
  { intros i n. unfold Fempty, upd. destruct (N.eqb_spec i ROOT); [|discriminate]. intros H; injection H as <-. auto. }
  assert (NE : forall d k nm i, ~ entry Fempty d k nm i). { intros d k nm i (p & sl & A & B). destruct (E _ _ A) as [_ X]. injection X as -> ->. discriminate. }
  constructor.
  - exists (fun _ => None). reflexivity.
  - reflexivity.
  - intros d k nm i H. destruct (NE _ _ _ _ H).
  - intros d k l nm i j H. destruct (NE _ _ _ _ H).
  - intros i p sl H N. destruct (E _ _ H). congruence.
  - intros i nl sz b H. destruct (E _ _ H). discriminate.
  - intros i (p & sl & H). destruct (E _ _ H) as [-> _]. constructor.
Qed.

Lemma MakeRoot_run D s : FSV (format_mr g) D (fun _ => None) s -> exists s', MakeRoot g s = (Ok tt, s') /\ FSV (format_mr g) D Fempty s' /\ s_w s' <> s_w s.
Proof.
  intros (V & HV & HR).
  assert (V2 : V INODE_ROOTDIR = None) by (eapply (REP_none g OK); [exact HR|reflexivity]).
  assert (VR : INODE_IS_VALID g INODE_ROOTDIR = true). { apply valid_range. destruct OK. unfold ROOT, INODE_ROOTDIR. lia. }
  destruct (vol_create_at g OK (format_mr g) D false V [] s INODE_ROOTDIR INODE_INVALID true HV ltac:(auto) VR V2) as (c & s2 & RC & HV2 & _).
  exists s2. split; [unfold MakeRoot; now rewrite (bind_ok _ _ _ _ _ RC)|]. split.
  + eexists. split; [eapply (VOL_nil g OK); exact HV2|]. unfold Fempty. apply (REP_upd g OK); auto. apply (RN_new g OK true 0).
  + intros E. pose proof (VOL_lv g OK _ _ _ _ _ _ INODE_ROOTDIR HV2) as LV. rewrite upd_same in LV.
    pose proof (VOL_lv g OK _ _ _ _ _ _ INODE_ROOTDIR HV) as LV0. rewrite V2 in LV0. unfold lv, cur in LV, LV0. rewrite E in LV. congruence.
Qed.
Lemma MakeRoot_ws : ws (MakeRoot g).
Proof.
  intros s. unfold MakeRoot, bind, ret. pose proof (w_Create g INODE_ROOTDIR INODE_INVALID true s) as WL. cbn in WL |- *.
  destruct (RedInodeCreate g INODE_ROOTDIR INODE_INVALID true s) as [[?|?] ?]; exact WL.
Qed.
Lemma format_ok v X o1 o2 : v_mnt v = false -> s_res (v_s v) = false -> s_afree (v_s v) = 0 -> MS (v_d v) X ->
  v_seq v + fst o1 + fst o2 + 3 <= UINT64_MAX ->
  exists v' t, RedVolFormat g o1 o2 v = (Ok tt, v', t) /\ v_mnt v' = false /\ s_res (v_s v') = false /\ MS (v_d v') (Some Fempty) /\ v_mask v' = v_mask v /\ s_afree (v_s v') = 0 /\
    TRo (fun Y => Y = X \/ Y = None \/ Y = Some Fempty) t.
Proof.
  apply (format_gen g OK atom (MakeRoot g) Fempty).
  - apply MakeRoot_ws.
  - apply Fempty_WF.
  - apply MakeRoot_run.
Qed.

(** * Steps of the model *)
Variable MOUNT_MASK TRANSACT_MASK TRANSACT_DEFAULT : N.
Set Default Proof Using "All".
Notation exec := (exec g atom MOUNT_MASK TRANSACT_MASK).
Notation boot := (boot TRANSACT_DEFAULT).
(** Names are C strings: no zero byte among the characters. *)
Definition legal (c : call) : Prop :=
  match c with
  | CCreate _ nm _ | CLink _ nm _ | CUnlink _ nm | CLookup _ nm => nozero nm
  | CRename _ a _ b => nozero a /\ nozero b
  | _ => True
  end.
(** red_mount and red_umount (posix.c) call the core only in these states.  Formatting while the
    counter of almost free blocks is not zero produces a wrong free count (see C36). *)
Definition allowed (v : vol) (c : call) : Prop :=
  match c with CMount _ => v_mnt v = false | CUnmount => v_mnt v = true | CFormat => v_mnt v = true \/ s_afree (v_s v) = 0 | _ => True end.
(** The 64-bit sequence number is not exhausted. *)
Definition room (v : vol) (o1 o2 : oracle) : Prop := v_seq v + fst o1 + fst o2 + 3 <= UINT64_MAX.
(** Blocks that may be written at any time between calls: dirty buffers, none when unmounted. *)
Definition dirty (v : vol) : N -> bool := if v_mnt v then s_wr (v_s v) else fun _ => false.

Inductive step : vol -> option event -> vol -> Prop :=
| S_call v c o1 o2 r v' t : legal c -> allowed v c -> room v o1 o2 -> exec c o1 o2 v = (r, v', t) ->
    step v (Some (ECall c r)) v'
| S_crash v c o1 o2 r v' t sn d d' : legal c -> allowed v c -> room v o1 o2 -> exec c o1 o2 v = (r, v', t) ->
    In sn t -> sn d -> lose d d' -> step v (Some (ECrash (Some c))) (boot d')
| S_lost v d d' : mayhap (dirty v) (v_d v) d -> lose d d' -> step v (Some (ECrash None)) (boot d')
| S_init v : v_mnt v = false -> step v (Some (ECrash None)) (boot (v_d v))   (* red_uninit and red_init *)
| S_back v d seq : v_mnt v = true -> mayhap (s_wr (v_s v)) (v_d v) d -> v_seq v <= seq <= UINT64_MAX ->
    step v None (vset_seq seq (vset_d d v)).
Inductive steps : vol -> list event -> vol -> Prop :=
| Ss_nil v : steps v [] v
| Ss_cons v e v1 t v2 : step v (Some e) v1 -> steps v1 t v2 -> steps v (e :: t) v2
| Ss_back v v1 t v2 : step v None v1 -> steps v1 t v2 -> steps v t v2.

(** * Simulation *)
Notation astep := (astep (NMAX g) MX (ICNT g) MOUNT_MASK TRANSACT_MASK TRANSACT_DEFAULT).
Notation asteps := (asteps (NMAX g) MX (ICNT g) MOUNT_MASK TRANSACT_MASK TRANSACT_DEFAULT).
Definition Sim (v : vol) (a : ast) : Prop :=
  match a with
  | Mnt W C ro mask => VI g atom v W C /\ s_ro (v_s v) = ro /\ v_mask v = mask
  | Umt X mask => v_mnt v = false /\ s_res (v_s v) = false /\ MS (v_d v) X /\ v_mask v = mask
  end.

Definition awork (a : ast) : option fs := match a with Mnt W _ _ _ => Some W | Umt _ _ => None end.
Definition acom (a : ast) : option fs := match a with Mnt _ C _ _ => Some C | Umt C _ => C end.
Definition amask (a : ast) : N := match a with Mnt _ _ _ m => m | Umt _ m => m end.
(** The possible committed states after a power loss during a call that leads from [a] to [a']:
    the committed state before or after the call; also the working state before it if the call was
    retried after a transaction; and nothing during a format. *)
Definition crash_to (a a' : ast) (c : call) (X : option fs) : Prop :=
  X = acom a \/ X = acom a' \/ modifies c = true /\ has (amask a) T_VOLFULL = true /\ X = awork a \/ c = CFormat /\ X = None.
(** The outcome of a call: final state and possible states after a power loss. *)
Definition call_ok (v : vol) (c : call) (r : res out) (v' : vol) (t : list snap) (a : ast) : Prop :=
  exists a', astep a (ECall c r) a' /\ Sim v' a' /\
  TRo (fun X => astep a (ECrash (Some c)) (Umt X TRANSACT_DEFAULT) /\ crash_to a a' c X) t.

Lemma mod_ok {A} bad (m : M st A) c f o1 o2 v W C mask :
  OPS g bad m (fun x F F' => op_ok c (f x) F F') (fun F e => op_err c F e) -> modifies c = true -> Sim v (Mnt W C false mask) -> room v o1 o2 ->
  exists r v' t, omap f (autocommit (evbit c) m o1 o2) v = (r, v', t) /\ (bad /\ s_ro (v_s v') = true \/ call_ok v c r v' t (Mnt W C false mask)).
Proof.
  intros HO MC (HV & RO & MK) RM. unfold room in RM.
  destruct (autocommit_ok g OK atom bad m _ _ (evbit c) o1 o2 v W C HO HV RO ltac:(lia)) as (r & v' & t & R & MK' & X).
  unfold omap, pbind, pret. rewrite R.
  assert (G : exists t', (match r with Ok a => (Ok (f a), v', t ++ []) | Err e => (Err e, v', t) end) =
     ((match r with Ok a => Ok (f a) | Err e => Err e end), v', t') /\ (forall P, TRo P t -> TRo P t')).
  { destruct r; eexists; (split; [reflexivity|]); intros P HP; auto. rewrite app_nil_r. auto. }
  destruct G as (t' & -> & HT'). eexists. eexists. eexists. split; [reflexivity|].
  destruct X as [X|(RO' & W' & Cm & C' & HV' & HC & HT & HR)]; [auto|]. right. rewrite MK in *.
  exists (Mnt W' C' false mask). split; [|split; [split; auto|]].
  - destruct r as [a|e].
    + destruct HR as [HR ->]. apply A_ok; auto.
    + destruct HR as (HE & -> & ->). apply A_err; auto.
  - apply HT'. eapply TR_TRo; [|exact HT]. intros X HX. split; [apply A_crash|unfold crash_to; cbn [acom awork amask]].
    + destruct HX as [->|[->|((x & ->) & HE & ->)]].
      * left; auto.
      * right. split; auto.
      * right. split; auto. left. split; auto. right. split; auto. destruct HR as [HR _]. eauto.
    + destruct HX as [->|[->|((x & ->) & HE & ->)]]; auto.
      * destruct HC as [->|[HC ->]]; auto. right. right. left. auto.
      * destruct HR as [_ ->]. rewrite HE. auto.
Qed.

Lemma read_ok' {A} (m : M st A) c f v W C ro mask : rs m -> reads c = true ->
  (forall C0 D0 F s, FSV C0 D0 F s -> exists r, m s = (r, s) /\ read_ok (NMAX g) c F (match r with Ok a => Ok (f a) | Err e => Err e end)) ->
  Sim v (Mnt W C ro mask) ->
  exists r t, omap f (mounted m) v = (r, v, t) /\ call_ok v c r v t (Mnt W C ro mask) /\ read_ok (NMAX g) c W r.
Proof.
  intros HR RC H (HV & RO & MK).
  destruct (read_run g OK atom m (fun r F => read_ok (NMAX g) c F (match r with Ok a => Ok (f a) | Err e => Err e end)) v W C HR H HV) as (r & R & Q).
  unfold omap, pbind, pret. rewrite R.
  assert (T0 : TRo (fun X => astep (Mnt W C ro mask) (ECrash (Some c)) (Umt X TRANSACT_DEFAULT) /\ crash_to (Mnt W C ro mask) (Mnt W C ro mask) c X) [mayhap (s_wr (v_s v)) (v_d v)]).
  { eapply (TR_TRo g atom (eq C)); [|eapply (back_TR g OK atom v W C); eauto]. intros X <-. split; [apply A_crash; auto|left; auto]. }
  destruct r as [a|e]; eexists; eexists; (split; [reflexivity|]); (split; [|exact Q]);
    (exists (Mnt W C ro mask); split; [apply A_read; auto|split; [split; auto|try rewrite app_nil_r; exact T0]]).
Qed.

Lemma freei_count v W C : VI g atom v W C -> m_freei (s_w (v_s v)) = free_inodes (ICNT g) W.
Proof.
  intros (C0 & D0 & X). destruct (x_w _ _ _ _ _ _ _ X) as (V & HV & HR). pose proof HV as (pm & K & _).
  pose proof (k_freei K) as KF. cbn [s_w set_ro] in KF. rewrite KF. unfold free_inodes, ROOT. apply count_ext. intros i _.
  rewrite (VOL_lv g OK _ _ _ _ _ _ i HV). specialize (HR i). destruct (V i), (W i) as [[| ]|]; cbn in HR; auto; tauto.
Qed.

Lemma read_call c o1 o2 v W C ro mask : reads c = true -> legal c -> Sim v (Mnt W C ro mask) ->
  exists r t, exec c o1 o2 v = (r, v, t) /\ call_ok v c r v t (Mnt W C ro mask) /\ read_ok (NMAX g) c W r.
Proof.
  intros RC LG HS. destruct c; try discriminate RC; cbn [FsVolume.exec].
  - destruct (read_ok' (CoreLookup g p nm) (CLookup p nm) ONum v W C ro mask (r_CoreLookup g p nm) eq_refl) as (r & t & R & X & Y); eauto 7.
    intros C0 D0 F s HF. destruct (core_lookup g OK C0 D0 F s p nm HF LG) as (r & R & X). exists r. split; auto. destruct r; exact X.
  - destruct (read_ok' (CoreStat g i) (CStat i) OStat v W C ro mask (r_CoreStat g i) eq_refl) as (r & t & R & X & Y); eauto 7.
    intros C0 D0 F s HF. destruct (core_stat g OK C0 D0 F s i HF) as (r & R & X). exists r. split; auto. destruct r as [[[[d nl] sz] bl]|]; exact X.
  - destruct (read_ok' (CoreFileRead g i start len) (CRead i start len) ORead v W C ro mask (r_CoreFileRead g i start len) eq_refl) as (r & t & R & X & Y); eauto 7.
    intros C0 D0 F s HF. destruct (core_read g OK C0 D0 F s i start len HF) as (r & R & X). exists r. split; auto. destruct r as [[n f]|]; exact X.
  - destruct (read_ok' (CoreDirRead g i pos) (CDirRead i pos) OEnt v W C ro mask (r_CoreDirRead g i pos) eq_refl) as (r & t & R & X & Y); eauto 7.
    intros C0 D0 F s HF. destruct (core_dirread g OK C0 D0 F s i pos HF) as (r & R & X). exists r. split; auto. destruct r as [[[[nm j]|] k']|]; exact X.
  - destruct (read_ok' (CoreDirParent g i) (CDirParent i) ONum v W C ro mask (r_CoreDirParent g i) eq_refl) as (r & t & R & X & Y); eauto 7.
    intros C0 D0 F s HF. destruct (core_dirparent g OK C0 D0 F s i HF) as (r & R & X). exists r. split; auto. destruct r; exact X.
Qed.
Lemma mounted_run c o1 o2 v W C ro mask : legal c -> allowed v c -> room v o1 o2 -> Sim v (Mnt W C ro mask) ->
  exists r v' t, exec c o1 o2 v = (r, v', t) /\ call_ok v c r v' t (Mnt W C ro mask).
Proof.
  intros LG AL RM HS. pose proof HS as (HV & RO & MK). assert (MN : v_mnt v = true) by (destruct HV as (? & ? & X); apply X).
  assert (TN : forall a a' c, TRo (fun X => astep a (ECrash (Some c)) (Umt X TRANSACT_DEFAULT) /\ crash_to a a' c X) []) by (intros; constructor).
  assert (ROF : forall B ev (m : M st B) f, ro = true -> omap f (autocommit ev m o1 o2) v = (Err EROFS, v, [])).
  { intros B ev m f E. unfold omap, autocommit, pbind, guard. rewrite MN. cbn [negb]. now rewrite RO, E. }
  assert (ROK : modifies c = true -> ro = true -> call_ok v c (Err EROFS) v [] (Mnt W C ro mask)).
  { intros MC E. exists (Mnt W C ro mask). split; [rewrite E; apply A_ro; auto|split; auto]. }
  destruct c; cbn [FsVolume.exec].
  - destruct ro; [exists (Err EROFS), v, []; split; [apply ROF; auto|apply ROK; auto]|].
    destruct (mod_ok False _ (CCreate p nm dir) ONum o1 o2 v W C mask (ops_create p nm dir LG) eq_refl HS RM) as (r & v' & t & R & [[[] _]|X]). eauto 6.
  - destruct ro; [exists (Err EROFS), v, []; split; [apply ROF; auto|apply ROK; auto]|].
    destruct (mod_ok False _ (CLink p nm i) (fun _ => OUnit) o1 o2 v W C mask (ops_link p nm i LG) eq_refl HS RM) as (r & v' & t & R & [[[] _]|X]). eauto 6.
  - destruct ro; [exists (Err EROFS), v, []; split; [apply ROF; auto|apply ROK; auto]|].
    destruct (mod_ok False _ (CUnlink p nm) (fun _ => OUnit) o1 o2 v W C mask (ops_unlink p nm LG) eq_refl HS RM) as (r & v' & t & R & [[[] _]|X]). eauto 6.
  - destruct ro; [exists (Err EROFS), v, []; split; [apply ROF; auto|apply ROK; auto]|]. destruct LG as [L1 L2].
    destruct (mod_ok False _ (CRename sp sn dp dn) (fun _ => OUnit) o1 o2 v W C mask (ops_rename sp sn dp dn L1 L2) eq_refl HS RM) as (r & v' & t & R & [[[] _]|X]). eauto 6.
  - destruct ro; [exists (Err EROFS), v, []; split; [apply ROF; auto|apply ROK; auto]|].
    destruct (mod_ok False _ (CWrite i start len src) ONum o1 o2 v W C mask (ops_write i start len src) eq_refl HS RM) as (r & v' & t & R & [[[] _]|X]). eauto 6.
  - destruct ro; [exists (Err EROFS), v, []; split; [apply ROF; auto|apply ROK; auto]|].
    destruct (mod_ok False _ (CTruncate i size) (fun _ => OUnit) o1 o2 v W C mask (ops_truncate i size) eq_refl HS RM) as (r & v' & t & R & [[[] _]|X]). eauto 6.
  - destruct (read_call (CLookup p nm) o1 o2 v W C ro mask eq_refl LG HS) as (r & t & R & X & _). eauto 6.
  - destruct (read_call (CStat i) o1 o2 v W C ro mask eq_refl LG HS) as (r & t & R & X & _). eauto 6.
  - destruct (read_call (CRead i start len) o1 o2 v W C ro mask eq_refl LG HS) as (r & t & R & X & _). eauto 6.
  - destruct (read_call (CDirRead i pos) o1 o2 v W C ro mask eq_refl LG HS) as (r & t & R & X & _). eauto 6.
  - destruct (read_call (CDirParent i) o1 o2 v W C ro mask eq_refl LG HS) as (r & t & R & X & _). eauto 6.
  - (* transact *)
    unfold ounit, omap, RedCoreVolTransact, pbind at 1, guard. rewrite MN, RO. cbn [negb]. destruct ro.
    { eexists. eexists. eexists. split; [reflexivity|]. exists (Mnt W C true mask). split; [apply A_troro; auto|split; auto]. }
    destruct (transact_ok g OK atom v W C o1 (fun X => X = C \/ X = W) HV ltac:(unfold room in RM; lia) (or_introl eq_refl) (or_intror eq_refl)) as (v' & t & R & HV' & RO' & MK' & HT & _).
    rewrite R. eexists. eexists. eexists. split; [reflexivity|]. exists (Mnt W W false mask). split; [apply A_transact|]. split; [split; auto; split; congruence|].
    rewrite app_nil_r. eapply TR_TRo; [|exact HT]. intros X HX. split; [apply A_crash|unfold crash_to; cbn]; destruct HX as [->| ->]; auto.
    right. split; auto.
  - (* rollback *)
    unfold ounit, omap, RedCoreVolRollback, pbind at 1, guard. rewrite MN, RO. cbn [negb]. destruct ro.
    { eexists. eexists. eexists. split; [reflexivity|]. exists (Mnt W C true mask). split; [apply A_troro; auto|split; auto]. }
    destruct (rollback_ok g OK atom v W C HV RO) as (v' & R & HV' & RO' & MK' & _).
    rewrite R. eexists. eexists. eexists. split; [reflexivity|].
    exists (Mnt C C false mask). split; [apply A_rollback|]. split; [|apply TN]. split; auto. split; congruence.
  - (* mask *)
    unfold ounit, omap, pbind, RedCoreTransMaskSet, pret. rewrite MN. cbn [negb orb].
    destruct (N.eqb_spec (N.land m TRANSACT_MASK) m) as [E|E]; cbn [negb].
    + rewrite RO. destruct ro.
      * eexists. eexists. eexists. split; [reflexivity|]. exists (Mnt W C true mask). split; [apply A_maskro; auto|split; auto].
      * eexists. eexists. eexists. split; [reflexivity|]. exists (Mnt W C false m). split; [apply A_maskset; auto|]. split; [|apply TN].
        split; [|split; auto]. destruct HV as (C0 & D0 & [X1 X2 X3 X4 X5 X6 X7 X8 X9 X10]). exists C0, D0. constructor; auto.
    + eexists. eexists. eexists. split; [reflexivity|]. exists (Mnt W C ro mask). split; [apply A_maskinv; auto|split; auto].
  - unfold omap, pbind, RedCoreTransMaskGet, pret. rewrite MN. cbn [negb].
    eexists. eexists. eexists. split; [reflexivity|]. exists (Mnt W C ro mask). split; [rewrite MK; apply A_maskget|split; auto].
  - unfold omap, pbind, RedCoreVolStat, pret. rewrite MN. cbn [negb]. rewrite (freei_count v W C HV), RO.
    eexists. eexists. eexists. split; [reflexivity|]. exists (Mnt W C ro mask). split; [apply A_vstat|split; auto].
  - cbn in AL. congruence.
  - (* unmount *)
    destruct (unmount_ok g OK atom v W C o1 HV ltac:(unfold room in RM; lia)) as (v' & t & R & MK' & (U1 & U2 & U3) & HT).
    unfold ounit, omap, pbind, pret. rewrite R. eexists. eexists. eexists. split; [reflexivity|]. rewrite RO, MK in *.
    eexists. split; [apply A_umount|]. split; [cbn [Sim MS]; auto|].
    rewrite app_nil_r. eapply TR_TRo; [|exact HT]. intros X HX. split; [apply A_crash|unfold crash_to; cbn]; destruct HX as [->|[HX ->]]; auto; [|rewrite HX; auto].
      apply andb_true_iff in HX. destruct HX as [HX1 HX2]. right. split; [now destruct ro|]. right. right. auto.
  - unfold ounit, omap, pbind, RedVolFormat, RedVolFormatWith. rewrite MN. eexists. eexists. eexists. split; [reflexivity|].
    exists (Mnt W C ro mask). split; [apply A_formatbusy|split; auto].
Qed.

Lemma unmounted_run c o1 o2 v X mask : legal c -> allowed v c -> room v o1 o2 -> Sim v (Umt X mask) ->
  exists r v' t, exec c o1 o2 v = (r, v', t) /\ call_ok v c r v' t (Umt X mask).
Proof.
  intros LG AL RM HS. pose proof HS as (MN & RS & HM & MK).
  assert (TN : forall a a' c, TRo (fun X => astep a (ECrash (Some c)) (Umt X TRANSACT_DEFAULT) /\ crash_to a a' c X) []) by (intros; constructor).
  assert (INV : (modifies c = true \/ reads c = true \/ c = CTransact \/ c = CRollback \/ (exists m, c = CMaskSet m) \/ c = CMaskGet \/ c = CVolStat) ->
     call_ok v c (Err EINVAL) v [] (Umt X mask)).
  { intros HC. exists (Umt X mask). split; [apply A_umt; auto|]. split; auto. }
  assert (G : forall B (m : PV B) (f : B -> out), omap f (guard _ m) v = (Err EINVAL, v, [])).
  { intros. unfold omap, pbind, guard. now rewrite MN. }
  assert (G' : forall B (m : M st B) (f : B -> out), omap f (mounted m) v = (Err EINVAL, v, [])).
  { intros. unfold omap, pbind, mounted. now rewrite MN. }
  destruct c; cbn [FsVolume.exec]; try (exists (Err EINVAL), v, []; split; [apply G|apply INV; cbn; auto]; fail);
    try (exists (Err EINVAL), v, []; split; [apply G'|apply INV; cbn; auto]; fail).
  - exists (Err EINVAL), v, []. split; [|apply INV; do 4 right; left; eauto]. unfold ounit, omap, pbind, RedCoreTransMaskSet. now rewrite MN.
  - exists (Err EINVAL), v, []. split; [|apply INV; do 5 right; left; eauto]. unfold omap, pbind, RedCoreTransMaskGet. now rewrite MN.
  - exists (Err EINVAL), v, []. split; [|apply INV; do 6 right; eauto]. unfold omap, pbind, RedCoreVolStat. now rewrite MN.
  - unfold ounit, omap, RedCoreVolMount. destruct (N.eqb_spec (N.land flags MOUNT_MASK) flags) as [E|E]; cbn [negb].
    + destruct X as [C|]; cbn [FsFormat.MS] in HM.
      * destruct (mount_ok g OK atom C v (negb (N.land flags RED_MOUNT_READONLY =? 0)) HM) as (v' & R & HV & RO & MK' & _).
        unfold pbind at 1. rewrite R. eexists. eexists. eexists. split; [reflexivity|].
        eexists. split; [apply A_mount; auto|]. split; [|apply TN]. split; auto. split; auto. congruence.
      * destruct HM as [H1 H2]. unfold pbind, RedVolMountMaster. rewrite H1. eexists. eexists. eexists. split; [reflexivity|].
        exists (Umt None mask). split; [apply A_mountblank; auto|]. split; [cbn; auto|apply TN].
    + eexists. eexists. eexists. split; [reflexivity|]. exists (Umt X mask). split; [apply A_mountinv; auto|split; auto].
  - cbn in AL. congruence.
  - cbn in AL. destruct AL as [AL|AF]; [congruence|].
    destruct (format_ok v X o1 o2 MN RS AF HM RM) as (v' & t & R & A1 & A2 & A3 & A4 & A5 & HT). unfold ounit, omap, pbind, pret. rewrite R.
    eexists. eexists. eexists. split; [reflexivity|].
    exists (Umt (Some Fempty) mask). split; [apply A_format|]. split; [repeat split; auto; congruence|].
    rewrite app_nil_r. eapply Forall_impl; [|exact HT]. intros sn H d Hd d' L. destruct (H d Hd d' L) as (Y & HY & M). exists Y. split; auto.
    split; [apply A_crashumt; tauto|]. unfold crash_to. cbn. tauto.
Qed.

Lemma boot_sim d X : MS d X -> Sim (boot d) (Umt X TRANSACT_DEFAULT).
Proof. intros H. split; auto. Qed.

Theorem step_sim v e v' a : Sim v a -> step v e v' ->
  match e with Some e => exists a', astep a e a' /\ Sim v' a' | None => Sim v' a end.
Proof.
  intros HS H. inversion H as [v0 c o1 o2 r v1 t LG AL RM EX|v0 c o1 o2 r v1 t sn d d' LG AL RM EX IN HD LO|v0 d d' MH LO|v0 MN|v0 d seq MN MH SQ]; subst; clear H.
  - destruct a as [W C ro mask|X mask].
    + destruct (mounted_run c o1 o2 v W C ro mask LG AL RM HS) as (r' & v'' & t' & EX' & X). rewrite EX in EX'. injection EX' as <- <- <-.
      destruct X as (a' & X1 & X2 & _). eauto.
    + destruct (unmounted_run c o1 o2 v X mask LG AL RM HS) as (r' & v'' & t' & EX' & a' & Y1 & Y2 & _). rewrite EX in EX'. injection EX' as <- <- <-. eauto.
  - assert (Y : exists a', TRo (fun X => astep a (ECrash (Some c)) (Umt X TRANSACT_DEFAULT) /\ crash_to a a' c X) t).
    { destruct a as [W C ro mask|X mask].
      + destruct (mounted_run c o1 o2 v W C ro mask LG AL RM HS) as (r' & v'' & t' & EX' & X). rewrite EX in EX'. injection EX' as <- <- <-.
        destruct X as (a' & _ & _ & X). eauto.
      + destruct (unmounted_run c o1 o2 v X mask LG AL RM HS) as (r' & v'' & t' & EX' & a' & _ & _ & Y). rewrite EX in EX'. injection EX' as <- <- <-. eauto. }
    destruct Y as (a' & Y). unfold FsFormat.TRo in Y. rewrite Forall_forall in Y. destruct (Y sn IN d HD d' LO) as (X & (AX & _) & MX'). exists (Umt X TRANSACT_DEFAULT). split; auto. apply boot_sim; auto.
  - destruct a as [W C ro mask|X mask].
    + destruct HS as (HV & RO & MK). assert (MN : v_mnt v = true) by (destruct HV as (? & ? & X); apply X). unfold dirty in MH. rewrite MN in MH.
      exists (Umt (Some C) TRANSACT_DEFAULT). split; [apply A_lost|]. apply boot_sim. apply (MS_lose g OK atom d); auto. eapply (back_CS g OK); eauto.
    + destruct HS as (MN & RS & HM & MK). unfold dirty in MH. rewrite MN in MH. exists (Umt X TRANSACT_DEFAULT). split; [apply A_lostumt|]. apply boot_sim.
      apply (MS_lose g OK atom d); auto. destruct X as [C|]; cbn [FsFormat.MS] in *.
      * eapply (CS_mayhap g OK); eauto. intros; discriminate.
      * destruct MH as (_ & _ & _ & -> & ->). auto.
  - destruct a as [W C ro mask|X mask]. { destruct HS as (HV & _). assert (v_mnt v = true) by (destruct HV as (? & ? & X); apply X). congruence. }
    destruct HS as (_ & RS & HM & MK). exists (Umt X TRANSACT_DEFAULT). split; [apply A_lostumt|]. apply boot_sim; auto.
  - destruct a as [W C ro mask|X mask]; [|destruct HS; congruence]. destruct HS as (HV & RO & MK). split; [|auto]. eapply (back_ok g OK); eauto.
Qed.

(** Every history of the model is a history of the specification. *)
Theorem steps_sim v t v' : steps v t v' -> forall a, Sim v a -> exists a', asteps a t a' /\ Sim v' a'.
Proof.
  induction 1 as [v|v e v1 t v2 S1 _ IH|v v1 t v2 S1 _ IH]; intros a HS.
  - exists a. split; [constructor|auto].
  - destruct (step_sim _ _ _ _ HS S1) as (a1 & A1 & HS1). destruct (IH a1 HS1) as (a2 & A2 & HS2). exists a2. split; auto. econstructor; eauto.
  - apply IH. exact (step_sim _ _ _ _ HS S1).
Qed.
End R.
