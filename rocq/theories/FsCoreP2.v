(** Creation, linking, lookup, reading, writing, truncation: core.c against FsSpec.v. *)
From Verif Require Import Base Count FsState FsImap FsInode FsData FsTree FsImapProof FsWp FsInv FsStep FsSeek FsBranch FsRead FsWrite FsWrite2 FsVol FsVol2 FsVol3 FsVol4 FsDir FsDirP FsDirP2 FsDirP3 FsCore FsSpec FsSpecP FsCoreP.
Ltac Zify.zify_post_hook ::= idtac.

Lemma runc_run {A} (m : MC A) c s r s' c' : m (s, c) = (r, (s', c')) -> runc m c s = (Ok (r, c'), s').
Proof. unfold runc. now intros ->. Qed.
Lemma finish_run {A} (m : MC A) c s r s' c' : m (s, c) = (r, (s', c')) -> finish m c s = (r, s').
Proof. unfold finish. now intros ->. Qed.

Definition nozero (nm : name) : Prop := forall k, k < nlen nm -> nbyte nm k <> 0.

Section CoreP2.
Variable g : cfg.
Hypothesis OK : cfg_ok g.
Set Default Proof Using "OK".
Notation FBC := (FreeBlockCount g).
Notation DirRep := (DirRep g).
Notation REP := (REP g).

Lemma DirRep_new p : DirRep (anew true p) 0 (fun _ => None).
Proof. constructor; try reflexivity; try discriminate; try lia. Qed.
Lemma RN_new dir p : RN g (Some (anew dir p)) (Some (newnode dir p)).
Proof. destruct dir; cbn; repeat split; auto. exists 0. apply DirRep_new. Qed.
Lemma RN_dir (a : afile) n p sl : DirRep a n sl -> a_nlink a = 1 -> a_pino a = p -> RN g (Some a) (Some (ADir p sl)).
Proof. cbn. eauto. Qed.
Lemma REP_isdir V F i a : REP V F -> V i = Some a -> a_dir a = true -> isdir F i.
Proof. intros H E D. specialize (H i). rewrite E in H. destruct (F i) as [[nl sz b|p sl]|] eqn:X; cbn in H; try tauto; [destruct H; congruence|exists p, sl; auto]. Qed.
Lemma REP_isfile V F i a : REP V F -> V i = Some a -> a_dir a = false -> isfile F i.
Proof.
  intros H E D. specialize (H i). rewrite E in H. destruct (F i) as [[nl sz b|p sl]|] eqn:X; cbn in H; try tauto; [exists nl, sz, b; auto|].
  destruct H as (_ & _ & n & R). rewrite (dr_dir _ _ _ _ R) in D. discriminate.
Qed.
(** An empty directory is one of size 0. *)
Lemma empty_size V F i a n sl p : REP V F -> F i = Some (ADir p sl) -> V i = Some a -> DirRep a n sl -> (a_size a = 0 <-> empty_dir F i).
Proof.
  intros HR E Va DR. rewrite (dr_size _ _ _ _ DR). split.
  - intros Z. exists p, sl. split; auto. intros k. destruct (sl k) as [[nm j]|] eqn:X; auto. destruct (dr_some _ _ _ _ DR _ _ _ X) as [Hk _].
    pose proof (dsize_lt g OK k n Hk) as Y. pose proof (DS_pos g OK). lia.
  - intros (p' & sl' & E' & Z). rewrite E in E'. injection E' as <- <-. destruct (N.eq_dec n 0) as [->|N]; [reflexivity|].
    destruct (dr_last _ _ _ _ DR); [lia|]. apply Z.
Qed.

Variables (C0 : mroot) (D0 : N -> blk).
Notation VOL := (VOL g C0 D0).
Definition FSV (F : fs) (s : st) : Prop := exists V, VOL false V [] s /\ REP V F.

Lemma mount_dir R0 V F os s p br : VOL R0 V os s -> REP V F -> ~ In p (map oino os) ->
  (exists e, bad_dir F p e /\ RedInodeMount g p FTYPE_DIR br s = (Err e, s)) \/
  exists q sl a n c s', F p = Some (ADir q sl) /\ V p = Some a /\ DirRep a n sl /\ a_pino a = q /\ a_nlink a = 1 /\
    RedInodeMount g p FTYPE_DIR br s = (Ok c, s') /\ VOL R0 V ((true, c) :: os) s' /\ c_ino c = p /\ c_dir c = true /\ c_dirty c = br /\
    (br = false -> s' = s) /\ m_free (s_w s') = m_free (s_w s).
Proof.
  intros HV HR NI. pose proof (vol_mount g OK C0 D0 R0 V os s p FTYPE_DIR br HV NI) as X. destruct (V p) as [a|] eqn:Va.
  - destruct (a_dir a) eqn:D.
    + right. destruct (REP_isdir V F p a HR Va D) as (q & sl & Fp). destruct (REP_dir g OK V F p q sl HR Fp) as (a' & n & Va' & PI & NL & DR).
      assert (a' = a) by congruence. subst a'. destruct X as (c & s' & X1 & X2 & X3 & X4 & X5 & X6 & X7 & X8).
      exists q, sl, a, n, c, s'. repeat (split; auto).
    + left. exists ENOTDIR. split; auto. right. split; auto. eapply REP_isfile; eauto.
  - left. exists EBADF. split; auto. left. split; auto. eapply (REP_none' g OK); eauto.
Qed.
Definition bad_file (F : fs) (i : N) (e : errno) : Prop := e = EBADF /\ F i = None \/ e = EISDIR /\ isdir F i.
Lemma mount_file R0 V F os s p br : VOL R0 V os s -> REP V F -> ~ In p (map oino os) ->
  (exists e, bad_file F p e /\ RedInodeMount g p FTYPE_FILE br s = (Err e, s)) \/
  exists nl sz b a c s', F p = Some (AFile nl sz b) /\ V p = Some a /\ a_dir a = false /\ a_nlink a = nl /\ a_size a = sz /\ (forall x, a_byte a x = b x) /\
    RedInodeMount g p FTYPE_FILE br s = (Ok c, s') /\ VOL R0 V ((true, c) :: os) s' /\ c_ino c = p /\ c_dir c = false /\ c_dirty c = br /\
    (br = false -> s' = s) /\ m_free (s_w s') = m_free (s_w s).
Proof.
  intros HV HR NI. pose proof (vol_mount g OK C0 D0 R0 V os s p FTYPE_FILE br HV NI) as X. destruct (V p) as [a|] eqn:Va.
  - destruct (a_dir a) eqn:D.
    + left. exists EISDIR. split; auto. right. split; auto. eapply REP_isdir; eauto.
    + right. destruct (REP_isfile V F p a HR Va D) as (nl & sz & b & Fp). destruct (REP_file g OK V F p nl sz b HR Fp) as (a' & Va' & D' & NL & SZ & BY).
      assert (a' = a) by congruence. subst a'. destruct X as (c & s' & X1 & X2 & X3 & X4 & X5 & X6 & X7 & X8).
      exists nl, sz, b, a, c, s'. repeat (split; auto).
  - left. exists EBADF. split; auto. left. split; auto. eapply (REP_none' g OK); eauto.
Qed.
Lemma FSV_ro F s : FSV F s -> s_ro s = false.
Proof. intros (V & H & _). eapply VOL_ro; eauto. Qed.

(** * Creation *)
Definition create_err (F : fs) (p : N) (nm : name) (s' : st) (e : errno) : Prop :=
  bad_dir F p e \/ e = ENFILE /\ (forall i, INODE_IS_VALID g i = true -> F i <> None) \/
  bad_name (NMAX g) nm e \/ e = EINVAL /\ isdots nm = true \/ e = EEXIST /\ (exists j, named F p nm j) \/
  e = ENOSPC /\ ((forall k, k < DIRENTS_MAX g -> exists nm' j, entry F p k nm' j) \/ FBC s' < MAXCOST g).

Lemma dcreate_err_fs F p q sl nm s' e : F p = Some (ADir q sl) -> dcreate_err g sl nm s' e ->
  bad_name (NMAX g) nm e \/ e = EINVAL /\ isdots nm = true \/ e = EEXIST /\ (exists j, named F p nm j) \/
  e = ENOSPC /\ ((forall k, k < DIRENTS_MAX g -> exists nm' j, entry F p k nm' j) \/ FBC s' < MAXCOST g).
Proof.
  intros Fp [H|[H|[[-> (k & i & E)]|[-> [H|H]]]]]; auto.
  - right. right. left. split; auto. exists i, k, q, sl. auto.
  - right. right. right. split; auto. left. intros k Hk. specialize (H k Hk). destruct (sl k) as [[nm' j]|] eqn:X; [|congruence]. exists nm', j, q, sl. auto.
  - right. right. right. auto.
Qed.
Lemma set_slot_eq F p q sl k v : F p = Some (ADir q sl) -> set_slot F p k v = upd F p (Some (ADir q (upd sl k v))).
Proof. unfold set_slot. now intros ->. Qed.

Theorem core_create F s p nm dir : FSV F s -> WF F -> nozero nm ->
  exists r s', CoreCreate g p nm dir s = (r, s') /\
    match r with
    | Ok i => INODE_IS_VALID g i = true /\ nok g nm /\ exists F', op_create F p nm dir i F' /\ FSV F' s'
    | Err e => FSV F s' /\ create_err F p nm s' e
    end.
Proof.
  intros (V & HV & HR) W NZ. unfold CoreCreate. rewrite (VOL_ro g OK C0 D0 _ _ _ _ HV).
  destruct (mount_dir false V F [] s p false HV HR (fun x => x)) as [(e & BD & RN)|(q & sl & a & n & c & s1 & Fp & Va & DR & PI & NL & R1 & HV1 & CI & CD & CB & SS & _)].
  { exists (Err e), s. split; [unfold bind at 1; now rewrite RN|]. split; [exists V; auto|]. left. auto. }
  rewrite (SS eq_refl) in *. clear SS s1. rewrite (bind_ok _ _ _ _ _ R1).
  assert (Pv : INODE_IS_VALID g p = true) by (eapply (VOL_valid g OK); eauto).
  destruct (vol_create g OK C0 D0 false V [(true, c)] s p dir HV1 Pv) as [(FULL & R2)|(i & ci & s2 & Vi & VN & NI & R2 & HV2 & I2 & Dir2 & Dt2 & _ & MF2 & _)].
  { destruct (wf_root F W) as [slr Er]. destruct (REP_dir g OK V F _ _ _ HR Er) as (ar & _ & Er' & _). unfold INODE_ROOTDIR. unfold ROOT in Er'. congruence. }
  { exists (Err ENFILE), s. split; [unfold bind at 1; now rewrite R2|]. split; [exists V; auto|]. right. left. split; auto.
    intros i Hi X. apply (FULL i Hi). eapply (REP_none g OK); eauto. }
  rewrite (bind_ok _ _ _ _ _ R2). apply (VOL_swap g OK) in HV2.
  assert (Npi : p <> i) by (intros ->; congruence).
  destruct (vol_branch g OK C0 D0 false _ _ _ _ _ HV2) as (s3 & c3 & R3 & HV3 & Dt3 & I3 & CI3 & Dir3 & MF3 & _).
  destruct (vol_dircreate g OK C0 D0 (upd V i (Some (anew dir p))) c3 [(true, ci)] s3 nm i a n sl HV3 Dt3) as (r & s4 & c4 & R4 & CI4 & X).
  { congruence. } { rewrite I3, CI, upd_other; auto. } { exact DR. } { exact NZ. } { exact Vi. }
  assert (RC : runc (RedInodeBranch g ;;; RedDirEntryCreate g nm (c_ino ci)) c s2 = (Ok (r, c4), s4)).
  { apply runc_run. rewrite (bind_ok _ _ _ _ _ R3), I2. exact R4. }
  rewrite (bind_ok _ _ _ _ _ RC). cbv beta iota. destruct (cid_facts g OK _ _ CI4) as (I4 & _).
  destruct r as [u|e].
  - destruct X as (k & a' & n' & NK & NM & SL & HV4 & DR' & NL' & PI'). rewrite I3, CI in HV4.
    exists (Ok i), s4. split; [unfold ret; now rewrite I2|]. split; [exact Vi|]. split; [exact NK|].
    assert (Fi : F i = None) by (eapply (REP_none' g OK); eauto).
    exists (set_slot (upd F i (Some (newnode dir p))) p k (Some (nm, i))). split.
    + split; [intros ->; discriminate Vi|]. split; [exact Fi|]. split; [exists q, sl; auto|]. split.
      { intros j (k' & q' & sl' & E & E'). rewrite Fp in E. injection E as <- <-. exact (NM _ _ E'). }
      exists k. split; auto. intros nm' j (q' & sl' & E & E'). rewrite Fp in E. injection E as <- <-. congruence.
    + exists (upd (upd V i (Some (anew dir p))) p (Some a')). split; [eapply (VOL_drop g OK), (VOL_drop g OK); exact HV4|].
      rewrite (set_slot_eq _ p q sl) by (rewrite upd_other; auto). apply (REP_upd g OK); [apply (REP_upd g OK); [exact HR|apply RN_new]|].
      eapply RN_dir; [exact DR'|congruence|congruence].
  - destruct X as (HV4 & ER). apply (VOL_swap g OK) in HV4.
    destruct (vol_free g OK C0 D0 false _ _ _ _ _ (anew dir p) HV4) as (s5 & c5 & R5 & HV5 & MF5); [rewrite I2, upd_same; auto|reflexivity|].
    exists (Err e), s5. split.
    { unfold bind at 1, attempt. unfold critical_assert. rewrite (finish_run _ _ _ _ _ _ R5). reflexivity. }
    assert (HV6 : VOL false V [] s5).
    { eapply (VOL_veq g OK); [|eapply (VOL_drop g OK); exact HV5]. rewrite I2. apply (upd_back g OK). auto. }
    split; [exists V; split; auto|].
    assert (EF : FBC s5 = FBC s4) by (rewrite (VOL_FBC g OK C0 D0 _ _ _ _ HV6), (VOL_FBC g OK C0 D0 _ _ _ _ HV4), MF5; reflexivity).
    pose proof (dcreate_err_fs F p q sl nm s4 e Fp ER) as Y. unfold create_err. rewrite EF. right. right. exact Y.
Qed.

(** * Linking *)
Definition link_err (F : fs) (p : N) (nm : name) (i : N) (s' : st) (e : errno) : Prop :=
  bad_dir F p e \/ e = EBADF /\ F i = None \/ e = EPERM /\ isdir F i \/ e = EMLINK /\ (exists sz b, F i = Some (AFile 65535 sz b)) \/
  bad_name (NMAX g) nm e \/ e = EINVAL /\ isdots nm = true \/ e = EEXIST /\ (exists j, named F p nm j) \/
  e = ENOSPC /\ ((forall k, k < DIRENTS_MAX g -> exists nm' j, entry F p k nm' j) \/ FBC s' < MAXCOST g).

Theorem core_link F s p nm i : FSV F s -> WF F -> nozero nm ->
  exists r s', CoreLink g p nm i s = (r, s') /\
    match r with
    | Ok _ => nok g nm /\ exists F', op_link F p nm i F' /\ FSV F' s'
    | Err e => FSV F s' /\ link_err F p nm i s' e
    end.
Proof.
  intros (V & HV & HR) W NZ. unfold CoreLink. rewrite (VOL_ro g OK C0 D0 _ _ _ _ HV).
  destruct (mount_dir false V F [] s p false HV HR (fun x => x)) as [(e & BD & RN)|(q & sl & a & n & c & s1 & Fp & Va & DR & PI & NL & R1 & HV1 & CI & CD & CB & SS & _)].
  { exists (Err e), s. split; [unfold bind at 1; now rewrite RN|]. split; [exists V; auto|]. left. auto. }
  rewrite (SS eq_refl) in *. clear SS s1. rewrite (bind_ok _ _ _ _ _ R1).
  destruct (N.eq_dec i p) as [->|Nip].
  { (* linking a directory below itself: the second mount of the same inode *)
    destruct (mount_file false V F [] s p false HV HR (fun x => x)) as [(e & BF & RN)|(nl & sz & b & a' & ci & s2 & Fi & _)]; [|congruence].
    assert (e = EISDIR). { destruct BF as [[_ X]|[-> _]]; congruence. } subst e.
    exists (Err EPERM), s. split; [unfold bind at 1, attempt; now rewrite RN|]. split; [exists V; auto|]. right. right. left. split; auto. exists q, sl; auto. }
  destruct (mount_file false V F [(true, c)] s i false HV1 HR) as [(e & BF & RN)|(nl & sz & b & a' & ci & s2 & Fi & Va' & Da' & NL' & SZ' & BY' & R2 & HV2 & CI2 & CD2 & CB2 & SS & _)].
  { cbn. intros [X|[]]. unfold oino in X. cbn in X. congruence. }
  { destruct BF as [[-> X]|[-> X]].
    - exists (Err EBADF), s. split; [unfold bind at 1, attempt; now rewrite RN|]. split; [exists V; auto|]. right. left. auto.
    - exists (Err EPERM), s. split; [unfold bind at 1, attempt; now rewrite RN|]. split; [exists V; auto|]. right. right. left. auto. }
  rewrite (SS eq_refl) in *. clear SS s2. rewrite (bind_ok _ _ _ _ _ (attempt_run _ _ _ _ R2)).
  destruct (VOL_V g OK _ _ _ _ _ _ _ _ HV2) as (a2 & Va2 & _ & _ & NL2 & _ & _). rewrite CI2 in Va2. assert (a2 = a') by congruence. subst a2.
  assert (ENL : i_nlink (c_i ci) = nl) by congruence. rewrite ENL.
  destruct (wf_file F W _ _ _ _ Fi) as [NLB _].
  destruct (N.eqb_spec nl UINT16MAX) as [->|NM].
  { exists (Err EMLINK), s. split; [reflexivity|]. split; [exists V; auto|]. do 3 right. left. split; auto. exists sz, b. exact Fi. }
  apply (VOL_swap g OK) in HV2.
  destruct (vol_branch g OK C0 D0 false _ _ _ _ _ HV2) as (s3 & c3 & R3 & HV3 & Dt3 & I3 & CI3 & Dir3 & _).
  rewrite (bind_ok _ _ _ _ _ (runc_run _ _ _ _ _ _ R3)). cbv beta iota.
  apply (VOL_swap g OK) in HV3.
  destruct (vol_branch g OK C0 D0 false _ _ _ _ _ HV3) as (s4 & c4 & R4 & HV4 & Dt4 & I4 & CI4 & Dir4 & _).
  rewrite (bind_ok _ _ _ _ _ (runc_run _ _ _ _ _ _ R4)). cbv beta iota.
  apply (VOL_swap g OK) in HV4.
  assert (Vi : INODE_IS_VALID g i = true) by (eapply (VOL_valid g OK); eauto).
  destruct (vol_dircreate g OK C0 D0 V c3 [(true, c4)] s4 nm i a n sl HV4 Dt3) as (r & s5 & c5 & R5 & CI5 & X).
  { congruence. } { congruence. } { exact DR. } { exact NZ. } { exact Vi. }
  replace (c_ino c4) with i by congruence.
  rewrite (bind_ok _ _ _ _ _ (runc_run _ _ _ _ _ _ R5)). cbv beta iota.
  destruct r as [u|e].
  - destruct X as (k & a5 & n5 & NK & NMt & SL & HV5 & DR' & NLk & PIk). rewrite I3, CI in HV5. apply (VOL_swap g OK) in HV5.
    assert (NLu : u16 (nl + 1) = nl + 1).
    { unfold u16, UINT16MAX in *. apply N.mod_small. lia. }
    destruct (vol_iset g OK C0 D0 false _ true c4 _ s5 (fun io => iset_nlink (u16 (i_nlink io + 1)) io) (fun x => anlink x (u16 (a_nlink x + 1))) HV5 Dt4)
      as (a6 & s6 & c6 & Va6 & R6 & _ & _ & HV6 & _); try reflexivity.
    { intros pm s0 j io. repeat split. }
    { intros x y (X1 & X2 & X3 & X4 & X5). repeat split; cbn; auto. now rewrite X3. }
    rewrite I4, CI2, upd_other in Va6 by auto. assert (a6 = a') by congruence. subst a6.
    exists (Ok tt), s6. split; [exact (finish_run _ _ _ _ _ _ R6)|]. split; [exact NK|].
    eexists. split.
    + exists nl, sz, b, k. split; [exact Fi|]. split; [unfold UINT16MAX in *; lia|]. split; [exists q, sl; auto|]. split; [|split; [|reflexivity]].
      * intros j (k' & q' & sl' & E & E'). rewrite Fp in E. injection E as <- <-. exact (NMt _ _ E').
      * intros nm' j (q' & sl' & E & E'). rewrite Fp in E. injection E as <- <-. congruence.
    + rewrite I4, CI2 in HV6. eexists. split; [eapply (VOL_drop g OK), (VOL_drop g OK); exact HV6|].
      rewrite (set_slot_eq F p q sl) by auto. apply (REP_upd g OK).
      * apply (REP_upd g OK); [exact HR|]. eapply RN_dir; [exact DR'|congruence|congruence].
      * cbn. rewrite NL', NLu. auto.
  - destruct X as (HV5 & ER). exists (Err e), s5. split; [reflexivity|]. split; [exists V; split; auto; eapply (VOL_drop g OK), (VOL_drop g OK); exact HV5|].
    unfold link_err. do 4 right. apply (dcreate_err_fs F p q sl nm s5 e Fp ER).
Qed.

(** * Lookup and enumeration *)
Theorem core_lookup F s p nm : FSV F s -> nozero nm ->
  exists r, CoreLookup g p nm s = (r, s) /\
    match r with
    | Ok i => named F p nm i
    | Err e => bad_dir F p e \/ bad_name (NMAX g) nm e \/ e = ENOENT /\ isdir F p /\ forall i, ~ named F p nm i
    end.
Proof.
  intros (V & HV & HR) NZ. unfold CoreLookup.
  destruct (mount_dir false V F [] s p false HV HR (fun x => x)) as [(e & BD & RN)|(q & sl & a & n & c & s1 & Fp & Va & DR & PI & NL & R1 & HV1 & CI & CD & CB & SS & _)].
  { exists (Err e). split; [unfold bind at 1; now rewrite RN|]. left. auto. }
  rewrite (SS eq_refl) in *. clear SS s1. rewrite (bind_ok _ _ _ _ _ R1).
  destruct (vol_lookup g OK C0 D0 false V c [] s nm a n sl HV1 CD ltac:(congruence) DR NZ) as (r & c2 & R2 & _ & _ & LR).
  unfold bind. rewrite (finish_run _ _ _ _ _ _ R2). unfold lookup_res in LR.
  destruct (N.eqb_spec (nlen nm) 0) as [Z|Z]. { subst r. exists (Err EINVAL). split; auto. right. left. left. auto. }
  destruct (N.ltb_spec (NMAX g) (nlen nm)) as [L|L]. { subst r. exists (Err ENAMETOOLONG). split; auto. right. left. right. auto. }
  destruct LR as [(k & i & E & ->)|(NM & f & -> & _)].
  - exists (Ok i). split; auto. exists k, q, sl. auto.
  - exists (Err ENOENT). split; auto. right. right. split; auto. split; [exists q, sl; auto|]. intros i (k & q' & sl' & E & E'). rewrite Fp in E. injection E as <- <-. exact (NM _ _ E').
Qed.

(** Reading a directory from position k: the first entry at a slot >= k, and the position after it. *)
Theorem core_dirread F s p k : FSV F s ->
  exists r, CoreDirRead g p k s = (r, s) /\
    match r with
    | Ok (Some (nm, i), k') => exists l, k <= l /\ k' = l + 1 /\ entry F p l nm i /\ forall x nm' j, k <= x < l -> ~ entry F p x nm' j
    | Ok (None, _) => isdir F p /\ forall x nm' j, k <= x -> ~ entry F p x nm' j
    | Err e => bad_dir F p e
    end.
Proof.
  intros (V & HV & HR). unfold CoreDirRead.
  destruct (mount_dir false V F [] s p false HV HR (fun x => x)) as [(e & BD & RN)|(q & sl & a & n & c & s1 & Fp & Va & DR & PI & NL & R1 & HV1 & CI & CD & CB & SS & _)].
  { exists (Err e). split; [unfold bind at 1; now rewrite RN|]. auto. }
  rewrite (SS eq_refl) in *. clear SS s1. rewrite (bind_ok _ _ _ _ _ R1).
  destruct (vol_dirread g OK C0 D0 false V c [] s k a n sl HV1 CD ltac:(congruence) DR) as (e & l & c2 & R2 & _ & _ & NE).
  rewrite (finish_run _ _ _ _ _ _ R2). eexists. split; [reflexivity|]. unfold next_ent in NE.
  assert (EN : forall x nm' j, entry F p x nm' j -> sl x = Some (nm', j)).
  { intros x nm' j (q' & sl' & E & E'). rewrite Fp in E. injection E as <- <-. exact E'. }
  destruct e as [[nm i]|]; cbv beta iota.
  - destruct NE as (N1 & N2 & N3). exists l. split; [apply N1|]. split; auto. split; [exists q, sl; auto|]. intros x nm' j Hx E. apply EN in E. rewrite N3 in E; auto. discriminate.
  - split; [exists q, sl; auto|]. intros x nm' j Hx E. apply EN in E. rewrite NE in E; auto. discriminate.
Qed.

Theorem core_dirparent F s i : FSV F s ->
  exists r, CoreDirParent g i s = (r, s) /\
    match r with
    | Ok p => i = ROOT /\ p = 0 \/ i <> ROOT /\ exists sl, F i = Some (ADir p sl)
    | Err e => bad_dir F i e
    end.
Proof.
  intros (V & HV & HR). unfold CoreDirParent. destruct (N.eqb_spec i INODE_ROOTDIR) as [E|E].
  { exists (Ok 0). split; auto. }
  destruct (mount_dir false V F [] s i false HV HR (fun x => x)) as [(e & BD & RN)|(q & sl & a & n & c & s1 & Fp & Va & DR & PI & NL & R1 & HV1 & CI & CD & CB & SS & _)].
  { exists (Err e). split; [unfold bind at 1; now rewrite RN|]. auto. }
  rewrite (SS eq_refl) in *. clear SS s1. rewrite (bind_ok _ _ _ _ _ R1).
  destruct (VOL_V g OK _ _ _ _ _ _ _ _ HV1) as (a2 & Va2 & _ & _ & _ & PI2 & _). rewrite CI in Va2. assert (a2 = a) by congruence. subst a2.
  exists (Ok q). split; [unfold ret; congruence|]. right. split; auto. exists sl; auto.
Qed.

(** * Status *)
Theorem core_stat F s i : FSV F s ->
  exists r, CoreStat g i s = (r, s) /\
    match r with
    | Ok (d, nl, sz, _) => d = true /\ nl = 1 /\ (exists p sl, F i = Some (ADir p sl)) \/ d = false /\ exists b, F i = Some (AFile nl sz b)
    | Err e => e = EBADF /\ F i = None
    end.
Proof.
  intros (V & HV & HR). unfold CoreStat.
  pose proof (vol_mount g OK C0 D0 false V [] s i FTYPE_EITHER false HV (fun x => x)) as X. destruct (V i) as [a|] eqn:Va.
  - assert (Y : exists c, RedInodeMount g i FTYPE_EITHER false s = (Ok c, s) /\ VOL false V [(true, c)] s /\ c_ino c = i).
    { destruct (a_dir a); destruct X as (c & s' & X1 & X2 & X3 & _ & _ & X6 & _); rewrite (X6 eq_refl) in *; exists c; auto. }
    destruct Y as (c & R & HV1 & CI). rewrite (bind_ok _ _ _ _ _ R).
    destruct (VOL_V g OK _ _ _ _ _ _ _ _ HV1) as (a2 & Va2 & SZ & DI & NL & PI2 & _). rewrite CI in Va2. assert (a2 = a) by congruence. subst a2.
    eexists. split; [reflexivity|]. cbv beta iota. rewrite <- SZ, <- DI, <- NL. specialize (HR i). rewrite Va in HR.
    destruct (F i) as [[nl sz b|p sl]|]; cbn in HR; [| |tauto].
    + destruct HR as (A & B & C & _). right. split; auto. exists b. congruence.
    + destruct HR as (A & B & n & DR). left. split; [apply DR|]. split; auto. exists p, sl; auto.
  - exists (Err EBADF). split; [unfold bind; now rewrite X|]. split; auto. eapply (REP_none' g OK); eauto.
Qed.

(** * File data *)
Theorem core_read F s i start len : FSV F s ->
  exists r, CoreFileRead g i start len s = (r, s) /\
    match r with
    | Ok (n, f) => exists nl sz b, F i = Some (AFile nl sz b) /\ n = N.min len (sz - start) /\ forall x, x < n -> f x = b (start + x)
    | Err e => bad_file F i e
    end.
Proof.
  intros (V & HV & HR). unfold CoreFileRead.
  destruct (mount_file false V F [] s i false HV HR (fun x => x)) as [(e & BF & RN)|(nl & sz & b & a & c & s2 & Fi & Va & Da & NL & SZ & BY & R2 & HV2 & CI2 & CD2 & CB2 & SS & _)].
  { exists (Err e). split; [unfold bind at 1; now rewrite RN|]. auto. }
  rewrite (SS eq_refl) in *. clear SS s2. rewrite (bind_ok _ _ _ _ _ R2).
  destruct (vol_read g OK C0 D0 false V c [] s start len HV2) as (a2 & f & c2 & Va2 & R3 & _ & _ & BYT). rewrite CI2 in Va2. assert (a2 = a) by congruence. subst a2.
  rewrite (finish_run _ _ _ _ _ _ R3). eexists. split; [reflexivity|]. cbv beta iota. exists nl, sz, b. split; auto. rewrite SZ in *.
  split. { destruct (N.leb_spec sz start) as [L|L]; lia. }
  intros x Hx. rewrite <- BY. apply BYT; destruct (N.leb_spec sz start) as [L|L]; lia.
Qed.

(** A write of [len] > 0 bytes stores a prefix; all of it (up to the maximum file size) unless the volume is full. *)
Theorem core_write F s i start len src : FSV F s -> 0 < len -> start < INODE_SIZE_MAX g ->
  exists r s', CoreFileWrite g i start len src s = (r, s') /\
    match r with
    | Ok n => 0 < n <= N.min len (INODE_SIZE_MAX g - start) /\ (n < N.min len (INODE_SIZE_MAX g - start) -> FBC s' < MAXCOST g) /\
        exists F', op_write F i start n src F' /\ FSV F' s'
    | Err e => FSV F s' /\ (bad_file F i e \/ e = ENOSPC /\ FBC s' < MAXCOST g)
    end.
Proof.
  intros (V & HV & HR) HL HS. unfold CoreFileWrite. rewrite (VOL_ro g OK C0 D0 _ _ _ _ HV).
  destruct (mount_file false V F [] s i true HV HR (fun x => x)) as [(e & BF & RN)|(nl & sz & b & a & c & s2 & Fi & Va & Da & NL & SZ & BY & R2 & HV2 & CI2 & CD2 & CB2 & SS & _)].
  { exists (Err e), s. split; [unfold bind at 1; now rewrite RN|]. split; [exists V; auto|auto]. }
  rewrite (bind_ok _ _ _ _ _ R2).
  destruct (vol_write g OK C0 D0 false V c [] s2 start len src HV2 CB2 HL HS) as (a2 & c3 & s3 & Va2 & _ & X); [discriminate|].
  rewrite CI2 in Va2. assert (a2 = a) by congruence. subst a2.
  destruct X as [(R3 & HV3 & FB & _)|(n & R3 & B1 & B2 & _ & HV3)].
  - exists (Err ENOSPC), s3. split; [exact (finish_run _ _ _ _ _ _ R3)|]. split; [exists V; split; auto; eapply (VOL_drop g OK); exact HV3|auto].
  - exists (Ok n), s3. split; [exact (finish_run _ _ _ _ _ _ R3)|]. split; auto. split; auto. rewrite CI2 in HV3.
    eexists. split; [exists nl, sz, b; split; [exact Fi|reflexivity]|]. eexists. split; [eapply (VOL_drop g OK); exact HV3|].
    apply (REP_upd g OK); auto. cbn. rewrite SZ. repeat split; auto. intros x. now rewrite BY.
Qed.

(** Truncation.  When reserved blocks exist and the file shrinks they may be used. *)
Theorem core_truncate F s i size : FSV F s -> size <= INODE_SIZE_MAX g ->
  exists r s', CoreFileTruncate g i size s = (r, s') /\
    match r with
    | Ok _ => exists F', op_truncate F i size F' /\ FSV F' s'
    | Err e => FSV F s' /\ (bad_file F i e \/ e = ENOSPC /\ 0 < size /\ exists nl sz b, F i = Some (AFile nl sz b) /\
        (if (size <? sz) && (0 <? RESV g) then m_free (s_w s) < MAXCOST g else FBC s < MAXCOST g))
    end.
Proof.
  intros (V & HV & HR) HL. unfold CoreFileTruncate. rewrite (VOL_ro g OK C0 D0 _ _ _ _ HV).
  destruct (mount_file false V F [] s i true HV HR (fun x => x)) as [(e & BF & RN)|(nl & sz & b & a & c & s2 & Fi & Va & Da & NL & SZ & BY & R2 & HV2 & CI2 & CD2 & CB2 & SS & MF)].
  { exists (Err e), s. split; [unfold bind at 1; now rewrite RN|]. split; [exists V; auto|auto]. }
  rewrite (bind_ok _ _ _ _ _ R2).
  destruct (VOL_V g OK _ _ _ _ _ _ _ _ HV2) as (a2 & Va2 & SZ2 & _). rewrite CI2 in Va2. assert (a2 = a) by congruence. subst a2.
  assert (ES : i_size (c_i c) = sz) by congruence. rewrite ES.
  destruct (VOL_use g OK C0 D0 (size <? sz) _ _ _ HV2) as (s3 & R3 & HV3 & W3). rewrite (bind_ok _ _ _ _ _ R3).
  destruct (vol_trunc g OK C0 D0 _ V c [] s3 size HV3 CB2 HL) as (a2 & c4 & s4 & Va2' & CI4 & X). rewrite CI2 in Va2'. assert (a2 = a) by congruence. subst a2.
  destruct X as [(R4 & HV4 & FB & SP & _)|(R4 & HV4)]; rewrite (bind_ok _ _ _ _ _ (runc_run _ _ _ _ _ _ R4)); cbv beta iota.
  - destruct (VOL_unuse g OK C0 D0 (size <? sz) _ _ _ HV4) as (s5 & R5 & HV5 & W5). rewrite (bind_ok _ _ _ _ _ R5).
    exists (Err ENOSPC), s5. split; [reflexivity|]. split; [exists V; split; auto; eapply (VOL_drop g OK); exact HV5|]. right. split; auto. split; auto.
    exists nl, sz, b. split; auto. rewrite (VOL_FBC g OK C0 D0 _ _ _ _ HV3) in FB. rewrite (VOL_FBC g OK C0 D0 _ _ _ _ HV). rewrite W3, MF in FB.
    destruct ((size <? sz) && (0 <? RESV g)); exact FB.
  - destruct (VOL_unuse g OK C0 D0 (size <? sz) _ _ _ HV4) as (s5 & R5 & HV5 & W5). rewrite (bind_ok _ _ _ _ _ R5).
    exists (Ok tt), s5. split; [reflexivity|]. rewrite CI2 in HV5.
    eexists. split; [exists nl, sz, b; split; [exact Fi|reflexivity]|]. eexists. split; [eapply (VOL_drop g OK); exact HV5|].
    apply (REP_upd g OK); auto. cbn. repeat split; auto. intros x. now rewrite BY.
Qed.
End CoreP2.
