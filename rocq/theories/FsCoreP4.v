(** Renaming: core.c CoreRename and dir.c RedDirEntryRename against FsSpec.v. *)
From Coq Require Import Permutation.
From Verif Require Import Base Count FsState FsImap FsInode FsData FsTree FsImapProof FsWp FsInv FsStep FsSeek FsBranch FsRead FsWrite FsWrite2 FsVol FsVol2 FsVol3 FsVol4 FsDir FsDirP FsDirP2 FsDirP3 FsCore FsSpec FsSpecP FsCoreP FsCoreP2 FsCoreP3.
Ltac Zify.zify_post_hook ::= idtac.

(** Running an operation on one of the two parent structures. *)
Definition dhead (cs : cin) (od : option cin) : cin := match od with None => cs | Some cd => cd end.
Definition dput (cs : cin) (od : option cin) (c : cin) : cin * option cin := match od with None => (c, None) | Some _ => (cs, Some c) end.
Lemma onsrc_run {A} (m : MC A) s cs od r s' c' : m (s, cs) = (r, (s', c')) -> onsrc m (s, (cs, od)) = (r, (s', (c', od))).
Proof. unfold onsrc. now intros ->. Qed.
Lemma ondst_run {A} (m : MC A) s cs od r s' c' : m (s, dhead cs od) = (r, (s', c')) -> ondst m (s, (cs, od)) = (r, (s', dput cs od c')).
Proof. unfold ondst. destruct od; cbn; now intros ->. Qed.
Lemma liftp_run {A} (m : M st A) s p r s' : m s = (r, s') -> liftp m (s, p) = (r, (s', p)).
Proof. unfold liftp. cbn. now intros ->. Qed.

Section CoreP4.
Variable g : cfg.
Hypothesis OK : cfg_ok g.
Set Default Proof Using "OK".
Notation FBC := (FreeBlockCount g).
Notation DirRep := (DirRep g).
Notation REP := (REP g).
Variables (C0 : mroot) (D0 : N -> blk).
Notation VOL := (VOL g C0 D0 false).
Notation FSV := (FSV g C0 D0).
Notation NewAt := (NewAt g C0 D0 false).

(** The open inodes: source parent, destination parent if different, others. *)
Definition PL (cs : cin) (od : option cin) (os : list (bool * cin)) : list (bool * cin) :=
  (true, cs) :: match od with None => os | Some cd => (true, cd) :: os end.
Definition PR (cs : cin) (od : option cin) (os : list (bool * cin)) : list (bool * cin) := match od with None => os | Some _ => (true, cs) :: os end.
Lemma PL_dst V cs od os s : VOL V (PL cs od os) s <-> VOL V ((true, dhead cs od) :: PR cs od os) s.
Proof. unfold PL, PR, dhead. destruct od; [|tauto]. split; apply (VOL_swap g OK). Qed.
Lemma PL_put V cs od os s c : VOL V ((true, c) :: PR cs od os) s <-> VOL V (PL (fst (dput cs od c)) (snd (dput cs od c)) os) s.
Proof. unfold PL, PR, dput. destruct od; cbn; [|tauto]. split; apply (VOL_swap g OK). Qed.

(** The check against making a directory its own descendant. *)
Lemma cyclic_loop_spec V F s src : VOL V [] s -> REP V F -> WF F -> src <> ROOT -> src <> 0 ->
  forall n next it fuel, Dist F n next -> it + N.of_nat n < ICNT g -> (n < fuel)%nat ->
  exists next' it', cyclic_loop g fuel src next it s = (Ok (next', it'), s) /\ it' < ICNT g /\
    (next' = src /\ Below F src next \/ next' <> src /\ ~ Below F src next).
Proof.
  intros HV HR W SR S0. induction n as [|n IH]; intros next it fuel D B L; (destruct fuel as [|fuel]; [lia|]); inversion D as [|? ? p NR E D']; subst; cbn [cyclic_loop].
  - change ROOT with 2 in *. unfold INODE_ROOTDIR. rewrite N.eqb_refl. cbn [negb andb]. rewrite andb_false_r. cbn [andb].
    exists 2, it. split; [reflexivity|]. split; [lia|]. right. split; [congruence|]. intros X. apply SR. apply (Below_root F src W S0 X).
  - destruct (N.eqb_spec next src) as [->|NS]; cbn [negb andb].
    + exists src, it. split; [reflexivity|]. split; [lia|]. left. split; auto. constructor.
    + unfold INODE_ROOTDIR. change ROOT with 2 in NR. destruct (N.eqb_spec next 2); [congruence|]. cbn [negb andb].
      assert (N0 : next <> 0). { intros ->. apply par_spec in E. destruct E as [sl E]. rewrite (wf_none F W) in E. discriminate. }
      unfold INODE_INVALID. destruct (N.eqb_spec next 0); [congruence|]. cbn [negb andb]. destruct (N.ltb_spec it (ICNT g)); [|lia].
      destruct (mount_dir g OK C0 D0 false V F [] s next false HV HR (fun x => x)) as [(e & BD & RN)|(q & sl & a & m & c & s1 & Fp & Va & DR & PI & NL & R1 & HV1 & CI & CD & CB & SS & _)].
      { exfalso. apply par_spec in E. destruct E as [sl E]. destruct BD as [[_ X]|[_ (? & ? & ? & X)]]; congruence. }
      rewrite (SS eq_refl) in *. clear SS s1. rewrite (bind_ok _ _ _ _ _ R1).
      destruct (VOL_V g OK _ _ _ _ _ _ _ _ HV1) as (a2 & Va2 & _ & _ & _ & PI2 & _). rewrite CI in Va2. assert (a2 = a) by congruence. subst a2.
      assert (q = p). { apply par_spec in E. destruct E as [sl' E]. congruence. } subst q.
      replace (i_pinode (c_i c)) with p by congruence.
      destruct (IH p (it + 1) fuel D' ltac:(lia) ltac:(lia)) as (x & y & R & Y & Z). exists x, y. split; auto. split; auto.
      destruct Z as [[Z1 Z2]|[Z1 Z2]]; [left|right]; split; auto.
      * eapply Below_par; eauto.
      * intros X. apply Z2. eapply Below_step; eauto.
Qed.
Lemma valid_dirs V F s : VOL V [] s -> REP V F -> forall j, isdir F j -> 2 <= j < 2 + ICNT g.
Proof.
  intros HV HR j (p & sl & E). destruct (REP_dir g OK V F j p sl HR E) as (a & _ & Va & _).
  pose proof (VOL_valid g OK C0 D0 false V [] s j a HV Va) as X. unfold INODE_IS_VALID, INODE_FIRST_VALID in X. apply andb_true_iff in X. destruct X as [X Y].
  apply N.leb_le in X. apply N.ltb_lt in Y. lia.
Qed.
Lemma cyclic_check V F os s cd b src q sl : VOL V ((b, cd) :: os) s -> REP V F -> WF F -> src <> ROOT -> INODE_IS_VALID g src = true -> src <> 0 ->
  F (c_ino cd) = Some (ADir q sl) -> c_dir cd = true ->
  (Below F src (c_ino cd) /\ DirCyclicRenameCheck g src cd s = (Err EINVAL, s)) \/
  (~ Below F src (c_ino cd) /\ DirCyclicRenameCheck g src cd s = (Ok tt, s)).
Proof.
  intros HV HR W SR SV S0 Fd CD. pose proof (VOL_nil g OK C0 D0 _ _ _ _ HV) as HV0. unfold DirCyclicRenameCheck.
  destruct (VOL_mounted g OK C0 D0 false _ _ _ _ _ HV) as [HM _]. rewrite SV, HM. cbn [negb orb].
  destruct (N.eqb_spec src (c_ino cd)) as [E|N]. { left. split; [rewrite E; constructor|reflexivity]. }
  rewrite CD. cbn [negb].
  destruct (VOL_V g OK _ _ _ _ _ _ _ _ HV) as (a2 & Va2 & _ & _ & _ & PI2 & _).
  destruct (REP_dir g OK V F _ q sl HR Fd) as (a & m & Va & PI & _). assert (a2 = a) by congruence. subst a2.
  replace (i_pinode (c_i cd)) with q by congruence.
  assert (HI : 1 <= ICNT g) by apply OK.
  destruct (N.eq_dec (c_ino cd) ROOT) as [ER|NR].
  - right. split. { rewrite ER. intros X. apply SR. eapply Below_root; eauto. }
    assert (Q0 : q = 0). { destruct (wf_root F W) as [s0 E0]. rewrite ER in Fd. congruence. } rewrite Q0.
    unfold bind. cbn [cyclic_loop]. unfold INODE_INVALID. rewrite N.eqb_refl. cbn [negb]. rewrite andb_false_r. cbn [andb]. unfold ret.
    destruct (N.eqb_spec 0 (ICNT g)); [lia|]. destruct (N.eqb_spec src 0); [congruence|]. reflexivity.
  - assert (DR : isdir F (c_ino cd)) by (exists q, sl; auto).
    destruct (Reach_Dist F _ (wf_reach F W _ DR)) as [n D]. pose proof (Dist_bound F n _ (ICNT g) W (valid_dirs V F s HV0 HR) D) as BD.
    inversion D as [E1 E2|n' x0 p NR' E D' E1 E2]; [congruence|]. clear x0 E2. subst n.
    assert (p = q). { apply par_spec in E. destruct E as [sl' E]. congruence. } subst p.
    destruct (cyclic_loop_spec V F s src HV0 HR W SR S0 n' q 0 (S (N.to_nat (ICNT g))) D' ltac:(lia) ltac:(lia)) as (x & y & R & Y & Z).
    rewrite (bind_ok _ _ _ _ _ R). cbv beta iota. destruct (N.eqb_spec y (ICNT g)); [lia|].
    destruct Z as [[-> Z2]|[Z1 Z2]].
    + left. split; [eapply Below_par; eauto|]. now rewrite N.eqb_refl.
    + right. split. { intros X. apply Z2. eapply Below_step; eauto. } destruct (N.eqb_spec src x); [congruence|]. reflexivity.
Qed.

(** Renaming can fail with these errors, with no effect. *)
Definition rename_err (F : fs) (sp : N) (sn : name) (dp : N) (dn : name) (e : errno) : Prop :=
  bad_dir F sp e \/ bad_dir F dp e \/ bad_name (NMAX g) sn e \/ bad_name (NMAX g) dn e \/ e = EINVAL /\ isdots dn = true \/
  e = ENOENT /\ isdir F sp /\ (forall i, ~ named F sp sn i) \/
  e = ENOTDIR /\ (exists i j, named F sp sn i /\ named F dp dn j /\ isdir F i /\ isfile F j) \/
  e = EISDIR /\ (exists i j, named F sp sn i /\ named F dp dn j /\ isfile F i /\ isdir F j) \/
  e = ENOTEMPTY /\ (exists i j, named F sp sn i /\ named F dp dn j /\ isdir F i /\ isdir F j /\ ~ empty_dir F j) \/
  e = EINVAL /\ (exists i, named F sp sn i /\ isdir F i /\ Below F i dp) \/
  e = ENOSPC /\ (forall k, k < DIRENTS_MAX g -> exists nm' j, entry F dp k nm' j).
(** What RedDirEntryRename does when both parents are open. *)
Definition ren_post (F : fs) (sp : N) (sn : name) (dp : N) (dn : name) (r : res (N * N * option cin * option cin)) (s' : st) : Prop :=
  match r with
  | Ok (i, j, _, od) =>
    named F sp sn i /\ named F dp dn i /\ i = j /\ FSV F s' \/
    exists ks kd, entry F sp ks sn i /\ (isdir F i -> ~ Below F i dp) /\ i <> j /\
      (j = 0 /\ (forall x, ~ named F dp dn x) /\ (forall nm x, ~ entry F dp kd nm x) \/
       entry F dp kd dn j /\ (isdir F i -> empty_dir F j) /\ (isfile F i -> isfile F j)) /\
      exists V', REP V' (set_parent (set_slot (set_slot F dp kd (Some (dn, i))) sp ks None) i dp) /\
        match od with
        | None => j = 0 /\ VOL V' [] s'
        | Some d => j <> 0 /\ c_ino d = j /\ VOL V' [(true, d)] s'
        end
  | Err e => FSV F s' /\ rename_err F sp sn dp dn e \/ e = ENOSPC /\ FSV F s'
  end.

(** The part after the checks. *)
Lemma ren_tail V F s cs od os sp sn dp dn ks kd i j si di :
  VOL V (PL cs od ((true, si) :: os)) s -> REP V F -> WF F ->
  c_ino cs = sp -> c_ino (dhead cs od) = dp -> (od = None <-> sp = dp) -> c_dirty cs = true -> c_dir cs = true -> c_dirty (dhead cs od) = true -> c_dir (dhead cs od) = true ->
  entry F sp ks sn i -> i <> j -> c_ino si = i -> c_dirty si = true -> nok g dn ->
  (j = 0 /\ di = None /\ os = [] /\ (forall x, ~ named F dp dn x) /\ (forall nm x, ~ entry F dp kd nm x) /\ kd < DIRENTS_MAX g /\
     (forall a n q sl, F dp = Some (ADir q sl) -> V dp = Some a -> DirRep a n sl -> kd <= n) \/
   exists d, di = Some d /\ c_ino d = j /\ os = [(true, d)] /\ entry F dp kd dn j /\ (isdir F i -> empty_dir F j) /\ (isfile F i -> isfile F j)) ->
  (isdir F i -> ~ Below F i dp) -> isdir F dp ->
  exists r s' x, (ondst (DirEntryWrite g kd i dn) ;;;
    r <- attempt (onsrc (RedDirEntryDelete g ks)) ;;
    match r with
    | Ok _ =>
      '(_, si') <- liftp (fun s => let '(r, (s', c')) := iset (iset_pinode dp) (s, si) in (Ok (tt, c'), s')) ;;
      ret (i, j, Some si', di)
    | Err ENOSPC =>
      r2 <- attempt (if negb (j =? INODE_INVALID) then ondst (DirEntryWrite g kd j dn) else ondst (RedDirEntryDelete g kd)) ;;
      match r2 with
      | Ok _ => fail ENOSPC
      | Err e => liftp (critical e)
      end
    | Err e => fail e
    end) (s, (cs, od)) = (r, (s', x)) /\ ren_post F sp sn dp dn r s'.
Proof.
  intros HV HR W CS CD ODE Ds Dirs Dd Dird ES Nij SI DSi NK J NB (qd & sld & Fd).
  destruct (wf_ent F W _ _ _ _ ES) as [Fi Ri].
  assert (I0 : i <> 0) by (eapply entry_not0; eauto).
  assert (Nisp : i <> sp) by (intros ->; exact (no_self F sp ks sn W ES)).
  (* the destination slot *)
  assert (KD : forall nm x, entry F dp kd nm x -> nm = dn /\ x = j).
  { intros nm x H. destruct J as [(_ & _ & _ & _ & Z & _)|(d & _ & _ & _ & Z & _)]; [destruct (Z _ _ H)|]. apply (entry_fun _ _ _ _ _ _ _ H Z). }
  assert (SLd : sld kd = if j =? 0 then None else Some (dn, j)).
  { destruct J as [(-> & _ & _ & _ & Z & _)|(d & _ & _ & _ & Z & _)].
    - change (0 =? 0) with true. destruct (sld kd) as [[nm x]|] eqn:X; auto. destruct (Z nm x). exists qd, sld; auto.
    - destruct (N.eqb_spec j 0) as [->|]; [destruct (entry_not0 F _ _ _ _ W Z); auto|]. destruct Z as (q & sl & A & B). rewrite Fd in A. injection A as <- <-. exact B. }
  assert (UQ : forall k x, sld k = Some (dn, x) -> k = kd).
  { intros k x H. assert (E : entry F dp k dn x) by (exists qd, sld; auto). destruct J as [(_ & _ & _ & Z & _)|(d & _ & _ & _ & Z & _)].
    - destruct (Z x). exists k; auto. - eapply (wf_name F W); eauto. }
  assert (SL : sp <> dp \/ ks <> kd).
  { destruct (N.eq_dec sp dp) as [->|]; auto. right. intros ->. destruct (KD _ _ ES). congruence. }
  destruct (REP_dir g OK V F dp qd sld HR Fd) as (ad & nd & Vd & PId & NLd & DRd).
  assert (KDM : kd <= nd /\ kd < DIRENTS_MAX g).
  { destruct J as [(_ & _ & _ & _ & _ & KM & KN)|(d & -> & _ & _ & (q & sl & A & B) & _)].
    - split; auto. eapply KN; eauto.
    - rewrite Fd in A. injection A as <- <-. destruct (dr_some _ _ _ _ DRd _ _ _ B) as [X _]. pose proof (dr_n _ _ _ _ DRd) as Y. clear - X Y. lia. }
  (* sp's node *)
  destruct (entry_dir _ _ _ _ _ ES) as (qs & sls & Fs).
  destruct (REP_dir g OK V F sp qs sls HR Fs) as (as_ & ns & Vs & _ & _ & DRs).
  assert (Vi : INODE_IS_VALID g i = true).
  { destruct (V i) as [ai|] eqn:Vi; [|destruct Fi; eapply (REP_none' g OK); eauto]. eapply (VOL_valid g OK); eauto. }
  apply PL_dst in HV.
  destruct (vol_direntwrite g OK C0 D0 false V (dhead cs od) _ s kd i dn ad nd sld HV Dd Dird) as (c1 & s1 & CI1 & X).
  { rewrite CD; exact Vd. } { exact DRd. } { apply KDM. } { apply KDM. } { left. split; auto. } { discriminate. }
  destruct X as [(R1 & HV1 & FB1 & _)|(R1 & HV1 & NA1)].
  { exists (Err ENOSPC), s1, (dput cs od c1). split; [unfold bind at 1; now rewrite (ondst_run _ _ _ _ _ _ _ R1)|]. right. split; auto. exists V. split; auto. eapply (VOL_nil g OK); exact HV1. }
  rewrite (bind_ok _ _ _ _ _ (ondst_run _ _ _ _ _ _ _ R1)). rewrite CD in HV1.
  set (a1 := awrite ad (DirEntryIndexToOffset g kd) (DIRENT_SIZE g) (dirent i dn)) in *.
  assert (DR1 : DirRep a1 (N.max nd (kd + 1)) (upd sld kd (Some (dn, i)))).
  { pose proof (DirRep_write g OK ad nd sld kd i dn DRd (proj1 KDM) (proj2 KDM)) as Y. unfold ent_of in Y. destruct (N.eqb_spec i 0); [congruence|]. apply Y. left. auto. }
  set (F1 := set_slot F dp kd (Some (dn, i))).
  assert (HR1 : REP (upd V dp (Some a1)) F1) by (eapply (REP_slot g OK); eauto).
  destruct (cid_facts g OK _ _ CI1) as (Ino1 & Dt1 & Dirc1).
  apply PL_put in HV1. destruct (dput cs od c1) as [cs1 od1] eqn:DP1. cbn [fst snd] in HV1.
  assert (P1 : c_ino cs1 = sp /\ c_dirty cs1 = true /\ c_dir cs1 = true /\ c_ino (dhead cs1 od1) = dp /\ c_dirty (dhead cs1 od1) = true /\ c_dir (dhead cs1 od1) = true /\ (od1 = None <-> sp = dp)).
  { unfold dput in DP1. destruct od as [cd|]; injection DP1 as <- <-; cbn in *.
    - repeat split; try congruence. intros Z. destruct ODE as [_ Q]. specialize (Q Z). discriminate.
    - assert (sp = dp) by (apply ODE; auto). repeat split; try congruence. }
  destruct P1 as (P1 & P2 & P3 & P4 & P5 & P6 & P7). clear DP1.
  (* the source directory now *)
  assert (ES1 : entry F1 sp ks sn i). { apply entry_set; [exists qd, sld; auto|]. right. auto. }
  destruct ES1 as (qs1 & sls1 & Fs1 & SLs1).
  destruct (REP_dir g OK _ _ _ _ _ HR1 Fs1) as (as1 & ns1 & Vs1 & PIs1 & NLs1 & DRs1).
  unfold PL in HV1.
  destruct (vol_dirdelete g OK C0 D0 false _ cs1 _ s1 ks as1 ns1 sls1 sn i HV1 P2 P3) as (c2 & s2 & CI2 & X).
  { rewrite P1; exact Vs1. } { exact DRs1. } { exact SLs1. }
  destruct (cid_facts g OK _ _ CI2) as (Ino2 & Dt2 & Dirc2).
  destruct X as [(R2 & HV2 & FB2 & KN & _)|(R2 & a2 & n2 & b2 & HV2 & DR2 & NL2 & PI2)].
  - (* revert *)
    unfold bind at 1. rewrite (attempt_run _ _ _ _ (onsrc_run _ _ _ od1 _ _ _ R2)).
    assert (HV2' : VOL (upd V dp (Some a1)) (PL c2 od1 ((true, si) :: os)) s2) by exact HV2. apply PL_dst in HV2'. clear HV2.
    assert (P2' : c_ino (dhead c2 od1) = dp /\ c_dirty (dhead c2 od1) = true /\ c_dir (dhead c2 od1) = true).
    { destruct od1 as [cd1|]; cbn in *; auto. assert (sp = dp) by (apply P7; auto). repeat split; congruence. }
    destruct P2' as (Q1 & Q2 & Q3).
    (* the blocks above the destination slot were allocated by the first write, so the undo finds space *)
    assert (NA2 : NewAt s2 dp (kd / DIRENTS_PER_BLOCK g)) by (apply KN; rewrite <- CD; exact NA1).
    assert (FD : isdir F dp) by (exists qd, sld; auto).
    assert (BACK : forall V' s', VOL V' [] s' -> REP V' (set_slot F1 dp kd (sld kd)) -> FSV F s').
    { intros V' s' A B. exists V'. split; auto. eapply (REP_ext g OK); [|exact B]. intros x.
      apply (slot_back g OK F dp kd (Some (dn, i)) (sld kd) FD). intros q sl Z. congruence. }
    assert (F1d : F1 dp = Some (ADir qd (upd sld kd (Some (dn, i))))). { unfold F1. rewrite (set_slot_eq g OK F dp qd sld) by auto. apply upd_same. }
    destruct (N.eqb_spec j 0) as [J0|J0]; unfold INODE_INVALID; rewrite ?J0.
    + change (0 =? 0) with true. cbn [negb].
      destruct (vol_dirdelete g OK C0 D0 false _ (dhead c2 od1) _ s2 kd a1 (N.max nd (kd + 1)) (upd sld kd (Some (dn, i))) dn i HV2' Q2 Q3) as (c3 & s3 & CI3 & X).
      { rewrite Q1. apply upd_same. } { exact DR1. } { apply upd_same. }
      destruct X as [(R3 & _ & _ & _ & NN)|(R3 & a3 & n3 & b3 & HV3 & DR3 & NL3 & PI3)].
      * exfalso. rewrite Q1 in NN. refine (NN _ NA2). 
        destruct (N.eq_dec kd nd) as [E1|E1].
        -- right. destruct (N.eq_dec kd 0) as [E2|E2]; [left; exact E2|right]. rewrite upd_other by (clear - E2; lia). rewrite E1. apply (dr_last _ _ _ _ DRd). clear - E1 E2. lia.
        -- left. destruct (N.eq_dec (kd + 1) nd) as [E2|E2]; [|clear - E1 E2 KDM; lia]. exfalso. apply (dr_last _ _ _ _ DRd); [clear - E2; lia|].
           replace (nd - 1) with kd by (clear - E2; lia). exact SLd.
      * exists (Err ENOSPC), s3. eexists. split.
        { unfold bind. rewrite (attempt_run _ _ _ _ (ondst_run _ _ _ _ _ _ _ R3)). reflexivity. }
        right. split; auto. eapply BACK; [eapply (VOL_nil g OK); exact HV3|]. rewrite Q1. rewrite SLd.
        eapply (REP_slot g OK); [exact HR1|exact F1d|exact DR3|rewrite NL3; exact NLd|rewrite PI3; exact PId].
    + destruct (N.eqb_spec j 0); [contradiction|]. cbn [negb].
      assert (EJ : entry F dp kd dn j) by (destruct J as [(-> & _)|(d & _ & _ & _ & Z & _)]; [congruence|auto]).
      assert (Vj : INODE_IS_VALID g j = true).
      { destruct (wf_ent F W _ _ _ _ EJ) as [Fj _]. destruct (V j) as [aj|] eqn:Vj; [|destruct Fj; eapply (REP_none' g OK); eauto]. exact (VOL_valid g OK C0 D0 false V _ s j aj HV Vj). }
      pose proof (dr_n _ _ _ _ DR1) as N1.
      destruct (vol_direntwrite g OK C0 D0 false _ (dhead c2 od1) _ s2 kd j dn a1 (N.max nd (kd + 1)) (upd sld kd (Some (dn, i))) HV2' Q2 Q3) as (c3 & s3 & CI3 & X).
      { rewrite Q1. apply upd_same. } { exact DR1. } { clear; lia. } { apply KDM. }
      { left. split; auto. split; auto. intros k x Z. unfold upd in Z. destruct (N.eqb_spec k kd); auto. eapply UQ; eauto. } { discriminate. }
      destruct X as [(R3 & _ & _ & NN)|(R3 & HV3 & _)].
      * exfalso. destruct NN as [_ NN]; [clear; lia|]. rewrite Q1 in NN. exact (NN NA2).
      * exists (Err ENOSPC), s3. eexists. split.
        { unfold bind. rewrite (attempt_run _ _ _ _ (ondst_run _ _ _ _ _ _ _ R3)). reflexivity. }
        right. split; auto. eapply BACK; [eapply (VOL_nil g OK); exact HV3|]. rewrite Q1. rewrite SLd.
        assert (DR3 := DirRep_write g OK a1 (N.max nd (kd + 1)) _ kd j dn DR1 ltac:(clear; lia) (proj2 KDM)). unfold ent_of in DR3. destruct (N.eqb_spec j 0); [contradiction|].
        eapply (REP_slot g OK); [exact HR1|exact F1d|apply DR3| |]; try assumption.
        left. split; auto. split; auto. intros k x Z. unfold upd in Z. destruct (N.eqb_spec k kd); auto. eapply UQ; eauto.
  - (* the source entry is gone *)
    unfold bind at 1. rewrite (attempt_run _ _ _ _ (onsrc_run _ _ _ od1 _ _ _ R2)). rewrite P1 in HV2.
    set (F2 := set_slot F1 sp ks None).
    assert (HR2 : REP (upd (upd V dp (Some a1)) sp (Some a2)) F2).
    { eapply (REP_slot g OK); [exact HR1|exact Fs1|exact DR2|congruence|congruence]. }
    set (V2 := upd (upd V dp (Some a1)) sp (Some a2)) in *.
    assert (HV3 : VOL V2 ((true, si) :: (b2, c2) :: match od1 with None => os | Some cd => (true, cd) :: os end) s2).
    { eapply (VOL_perm g OK); [|exact HV2]. destruct od1 as [cd1|]; [|apply perm_swap]. eapply perm_trans; [apply perm_skip, perm_swap|apply perm_swap]. }
    destruct (vol_iset g OK C0 D0 false V2 true si _ s2 (iset_pinode dp) (fun a => apino a dp) HV3 DSi) as (a4 & s4 & si' & Va4 & R4 & _ & _ & HV4 & _); try reflexivity.
    { intros pm s0 x io. repeat split. } { intros x y (X1 & X2 & X3 & X4 & X5). repeat split; cbn; auto. }
    exists (Ok (i, j, Some si', di)), s4. eexists. split.
    { unfold bind. rewrite (liftp_run (fun s => let '(r, (s', c')) := iset (iset_pinode dp) (s, si) in (Ok (tt, c'), s')) s2 _ (Ok (tt, si')) s4); [reflexivity|]. now rewrite R4. }
    cbn. right. exists ks, kd. split; auto. split; auto. split; auto. split.
    { destruct J as [(-> & _ & _ & J1 & J2 & _)|(d & _ & _ & _ & J1 & J2 & J3)]; [left|right]; auto. }
    exists (upd V2 i (Some (apino a4 dp))). rewrite SI in *. split.
    { fold F1. fold F2. intros x. specialize (HR2 x). unfold upd at 1. destruct (N.eqb_spec x i) as [->|Nx].
      - rewrite Va4 in HR2. unfold set_parent. destruct (F2 i) as [[nl sz b|p sl]|] eqn:F2i; [rewrite F2i| |cbn in HR2; tauto].
        + exact HR2.
        + rewrite upd_same. cbn in *. destruct HR2 as (_ & Y & n & Z). split; auto. split; auto. exists n. destruct Z. constructor; auto.
      - unfold set_parent. destruct (F2 i) as [[nl sz b|p sl]|]; auto. rewrite upd_other; auto. }
    destruct J as [(-> & -> & -> & _)|(d & -> & Ed & -> & J1 & _)].
    + split; auto. eapply (VOL_nil g OK); exact HV4.
    + split; [eapply entry_not0; eauto|]. split; auto. 
      destruct od1 as [cd1|].
      * apply (VOL_drop g OK) in HV4. apply (VOL_drop g OK) in HV4. apply (VOL_drop g OK) in HV4. exact HV4.
      * apply (VOL_drop g OK) in HV4. apply (VOL_drop g OK) in HV4. exact HV4.
Qed.
End CoreP4.
