(** Renaming, continued: RedDirEntryRename and CoreRename against FsSpec.v. *)
From Coq Require Import Permutation.
From Verif Require Import Base Count FsState FsImap FsInode FsData FsTree FsImapProof FsWp FsInv FsStep FsSeek FsBranch FsRead FsWrite FsWrite2 FsVol FsVol2 FsVol3 FsVol4 FsDir FsDirP FsDirP2 FsDirP3 FsCore FsSpec FsSpecP FsCoreP FsCoreP2 FsCoreP3 FsCoreP4.
Ltac Zify.zify_post_hook ::= idtac.

Section CoreP5.
Variable g : cfg.
Hypothesis OK : cfg_ok g.
Set Default Proof Using "OK".
Notation FBC := (FreeBlockCount g).
Notation DirRep := (DirRep g).
Notation REP := (REP g).

Lemma REP_type V F i a : REP V F -> V i = Some a -> if a_dir a then isdir F i else isfile F i.
Proof.
  intros HR Va. pose proof (HR i) as H. rewrite Va in H. destruct (F i) as [[nl sz b|p sl]|] eqn:E; cbn in H; [| |tauto].
  - destruct H as (A & _). rewrite A. exists nl, sz, b; auto.
  - destruct H as (_ & _ & n & D). rewrite (dr_dir _ _ _ _ D). exists p, sl; auto.
Qed.

Variables (C0 : mroot) (D0 : N -> blk).
Notation VOL := (VOL g C0 D0 false).
Notation FSV := (FSV g C0 D0).
(** Opening the inode that is replaced. *)
Lemma mount_di V F os s x i j si sp sn dp dn : VOL V os s -> REP V F -> ~ In j (map oino os) -> F j <> None ->
  named F sp sn i -> named F dp dn j -> (if c_dir si then isdir F i else isfile F i) ->
  exists r s', ((d <- liftp (RedInodeMount g j (if c_dir si then FTYPE_DIR else FTYPE_FILE) true) ;;
                if c_dir d && (0 <? i_size (c_i d)) then fail ENOTEMPTY else ret (Some d)) : MP (option cin)) (s, x) = (r, (s', x)) /\
    match r with
    | Ok od => exists d, od = Some d /\ VOL V ((true, d) :: os) s' /\ c_ino d = j /\ (isdir F i -> empty_dir F j) /\ (isfile F i -> isfile F j)
    | Err e => FSV F s' /\ rename_err g F sp sn dp dn e
    end.
Proof.
  intros HV HR NI Fj Ni Nj TI. assert (FS : FSV F s) by (exists V; split; auto; eapply (VOL_nil g OK); exact HV).
  pose proof (vol_mount g OK C0 D0 false V os s j (if c_dir si then FTYPE_DIR else FTYPE_FILE) true HV NI) as X.
  destruct (V j) as [a|] eqn:Va; [|destruct Fj; eapply (REP_none' g OK); eauto].
  pose proof (REP_type V F j a HR Va) as TJ.
  destruct (a_dir a) eqn:AD, (c_dir si) eqn:CD.
  - destruct X as (d & s' & R & HV' & CI & D & _). 
    destruct (VOL_V g OK _ _ _ _ _ _ _ _ HV') as (a2 & Va2 & SZ & _). rewrite CI in Va2. assert (a2 = a) by congruence. subst a2.
    destruct TJ as (pp & sl & Ej). destruct (REP_dir g OK V F j pp sl HR Ej) as (a2 & n & Va3 & _ & _ & DR). assert (a2 = a) by congruence. subst a2.
    pose proof (empty_size g OK V F j a n sl pp HR Ej Va DR) as ES.
    destruct (0 <? a_size a) eqn:Z.
    + exists (Err ENOTEMPTY), s'. split. { rewrite (bind_ok _ _ _ _ _ (liftp_run _ _ _ _ _ R)). rewrite D, <- SZ, Z. reflexivity. }
      split; [exists V; split; auto; eapply (VOL_nil g OK); exact HV'|]. do 8 right. left. split; auto. exists i, j. repeat (split; auto); [exists pp, sl; auto|].
      intros Y. apply ES in Y. apply N.ltb_lt in Z. lia.
    + exists (Ok (Some d)), s'. split. { rewrite (bind_ok _ _ _ _ _ (liftp_run _ _ _ _ _ R)). rewrite D, <- SZ, Z. reflexivity. }
      exists d. split; auto. split; auto. split; auto. split.
      * intros _. apply ES. apply N.ltb_ge in Z. lia.
      * intros (nl & sz & b & Y). destruct TI as (p' & s0 & TI). congruence.
  - exists (Err EISDIR), s. split. { unfold bind. now rewrite (liftp_run _ _ _ _ _ X). } split; auto. do 7 right. left. split; auto. exists i, j. repeat (split; auto).
  - exists (Err ENOTDIR), s. split. { unfold bind. now rewrite (liftp_run _ _ _ _ _ X). } split; auto. do 6 right. left. split; auto. exists i, j. repeat (split; auto).
  - destruct X as (d & s' & R & HV' & CI & D & _). exists (Ok (Some d)), s'. split. { rewrite (bind_ok _ _ _ _ _ (liftp_run _ _ _ _ _ R)). rewrite D. reflexivity. }
    exists d. split; auto. split; auto. split; auto. split; auto. intros (pp & sl & Y). destruct TI as (? & ? & ? & TI). congruence.
Qed.


(** The part of RedDirEntryRename after the two lookups (dir.c:729-795). *)
Definition ren_rest (dn : name) (sidx sino didx dino : N) : MP (N * N * option cin * option cin) :=
    if sino =? dino then ret (sino, dino, None, None) else
    si <- liftp (RedInodeMount g sino FTYPE_EITHER true) ;;
    di <- (if dino =? INODE_INVALID then ret None else
           d <- liftp (RedInodeMount g dino (if c_dir si then FTYPE_DIR else FTYPE_FILE) true) ;;
           if c_dir d && (0 <? i_size (c_i d)) then fail ENOTEMPTY else ret (Some d)) ;;
    cd <- ondst getc ;;
    (if c_dir si then liftp (DirCyclicRenameCheck g sino cd) else ret tt) ;;;
    ondst (DirEntryWrite g didx sino dn) ;;;
    r <- attempt (onsrc (RedDirEntryDelete g sidx)) ;;
    match r with
    | Ok _ =>
      '(_, si') <- liftp (fun s => let '(r, (s', c')) := iset (iset_pinode (c_ino cd)) (s, si) in (Ok (tt, c'), s')) ;;
      ret (sino, dino, Some si', di)
    | Err ENOSPC =>
      r2 <- attempt (if negb (dino =? INODE_INVALID) then ondst (DirEntryWrite g didx dino dn) else ondst (RedDirEntryDelete g didx)) ;;
      match r2 with
      | Ok _ => fail ENOSPC
      | Err e => liftp (critical e)
      end
    | Err e => fail e
    end.

Lemma ren_mid V F s cs od sp sn dp dn ks kd i j :
  VOL V (PL cs od []) s -> REP V F -> WF F ->
  c_ino cs = sp -> c_ino (dhead cs od) = dp -> (od = None <-> sp = dp) -> c_dirty cs = true -> c_dir cs = true -> c_dirty (dhead cs od) = true -> c_dir (dhead cs od) = true ->
  entry F sp ks sn i -> nok g dn -> isdir F dp ->
  (j = 0 /\ (forall x, ~ named F dp dn x) /\ (forall nm x, ~ entry F dp kd nm x) /\ kd < DIRENTS_MAX g /\
     (forall a n q sl, F dp = Some (ADir q sl) -> V dp = Some a -> DirRep a n sl -> kd <= n) \/ entry F dp kd dn j) ->
  exists r s' x, ren_rest dn ks i kd j (s, (cs, od)) = (r, (s', x)) /\ ren_post g C0 D0 F sp sn dp dn r s'.
Proof.
  intros HV HR W CS CD ODE Ds Dirs Dd Dird ES NK DD J.
  assert (FS0 : FSV F s) by (exists V; split; auto; eapply (VOL_nil g OK); exact HV).
  assert (NS : named F sp sn i) by (exists ks; auto).
  destruct (wf_ent F W _ _ _ _ ES) as [Fi Ri]. assert (I0 : i <> 0) by (eapply entry_not0; eauto).
  assert (Nisp : i <> sp) by (intros ->; exact (no_self F sp ks sn W ES)).
  assert (J0 : j = 0 \/ j <> 0 /\ j <> dp /\ F j <> None /\ named F dp dn j).
  { destruct J as [(-> & _)|E]; auto. right. split; [eapply entry_not0; eauto|]. split; [intros ->; exact (no_self F _ _ _ W E)|]. split; [apply (wf_ent F W _ _ _ _ E)|exists kd; auto]. }
  unfold ren_rest. destruct (N.eqb_spec i j) as [<-|Nij].
  { exists (Ok (i, i, None, None)), s, (cs, od). split; [reflexivity|]. left. split; auto. split; [|split; auto]. destruct J0 as [?|(_ & _ & _ & ?)]; [contradiction|auto]. }
  assert (Mcd : CINODE_IS_MOUNTED g (dhead cs od) = true).
  { pose proof (proj1 (PL_dst g OK C0 D0 _ _ _ _ _) HV) as HVd. apply (VOL_mounted g OK C0 D0 false _ _ _ _ _ HVd). }
  assert (GC : forall s', ondst getc (s', (cs, od)) = (Ok (dhead cs od), (s', (cs, od)))) by (intros; destruct od; reflexivity).
  (* mounting the destination when the rest of the open inodes is [os] *)
  destruct (N.eq_dec i dp) as [E|Nidp].
  - (* the source is the destination's parent: cyclic *)
    pose proof (VOL_nil g OK C0 D0 _ _ _ _ HV) as HV0.
    destruct (mount_any g OK C0 D0 false V F [] s i true HV0 HR (fun x => x) Fi) as (ai & si & s1 & Vi & R1 & HV1 & CI1 & Dt1 & Dir1 & _).
    rewrite (bind_ok _ _ _ _ _ (liftp_run _ _ _ _ _ R1)).
    pose proof (REP_type V F i ai HR Vi) as TI. rewrite <- Dir1 in TI.
    assert (CDi : c_dir si = true). { destruct (c_dir si); auto. exfalso. destruct TI as (? & ? & ? & TI). destruct DD as (? & ? & DD). congruence. }
    assert (FIN : forall s' di, FSV F s' -> exists r s'' x, (cd <- ondst getc ;;
        (if c_dir si then liftp (DirCyclicRenameCheck g i cd) else ret tt) ;;;
        ondst (DirEntryWrite g kd i dn) ;;;
        r <- attempt (onsrc (RedDirEntryDelete g ks)) ;;
        match r with
        | Ok _ =>
          '(_, si') <- liftp (fun s => let '(r, (s', c')) := iset (iset_pinode (c_ino cd)) (s, si) in (Ok (tt, c'), s')) ;;
          ret (i, j, Some si', di)
        | Err ENOSPC =>
          r2 <- attempt (if negb (j =? INODE_INVALID) then ondst (DirEntryWrite g kd j dn) else ondst (RedDirEntryDelete g kd)) ;;
          match r2 with
          | Ok _ => fail ENOSPC
          | Err e => liftp (critical e)
          end
        | Err e => fail e
        end) (s', (cs, od)) = (r, (s'', x)) /\ ren_post g C0 D0 F sp sn dp dn r s'').
    { intros s' di FS'. exists (Err EINVAL), s', (cs, od). split.
      - rewrite (bind_ok _ _ _ _ _ (GC s')). rewrite CDi. unfold bind at 1. unfold DirCyclicRenameCheck.
        assert (Vi' : INODE_IS_VALID g i = true) by (eapply (VOL_valid g OK); eauto). rewrite Vi', Mcd, CD, E, N.eqb_refl. reflexivity.
      - left. split; auto. do 9 right. left. split; auto. exists i. split; auto. rewrite CDi in TI. split; auto. rewrite E. constructor. }
    assert (FS1 : FSV F s1) by (exists V; split; auto; eapply (VOL_nil g OK); exact HV1).
    destruct J0 as [J0|(J0 & J1 & J2 & J3)].
    + unfold INODE_INVALID at 1. destruct (N.eqb_spec j 0) as [_|?]; [|contradiction]. rewrite (bind_ok _ _ _ _ _ (eq_refl : ret None (s1, (cs, od)) = _)). apply FIN. exact FS1.
    + unfold INODE_INVALID at 1. destruct (N.eqb_spec j 0) as [?|_]; [contradiction|].
      destruct (mount_di V F [(true, si)] s1 (cs, od) i j si sp sn dp dn HV1 HR) as (r2 & s2 & R2 & X2); auto.
      { cbn. intros [Y|[]]. unfold oino in Y. cbn in Y. congruence. }
      destruct r2 as [di|e].
      * rewrite (bind_ok _ _ _ _ _ R2). destruct X2 as (d & -> & HV2 & _). apply FIN. exists V; split; auto; eapply (VOL_nil g OK); exact HV2.
      * exists (Err e), s2, (cs, od). split; [unfold bind at 1; now rewrite R2|]. left. exact X2.
  - destruct (mount_any g OK C0 D0 false V F (PL cs od []) s i true HV HR) as (ai & si & s1 & Vi & R1 & HV1 & CI1 & Dt1 & Dir1 & _); auto.
    { unfold PL. destruct od as [cd|]; cbn in *; unfold oino; cbn; intros Y; repeat destruct Y as [Y|Y]; try congruence; try contradiction. }
    rewrite (bind_ok _ _ _ _ _ (liftp_run _ _ _ _ _ R1)).
    pose proof (REP_type V F i ai HR Vi) as TI. rewrite <- Dir1 in TI.
    assert (Vi' : INODE_IS_VALID g i = true) by (eapply (VOL_valid g OK); eauto).
    assert (FIN : forall s' di os', VOL V (PL cs od ((true, si) :: os')) s' ->
        (j = 0 /\ di = None /\ os' = [] /\ (forall x, ~ named F dp dn x) /\ (forall nm x, ~ entry F dp kd nm x) /\ kd < DIRENTS_MAX g /\
          (forall a n q sl, F dp = Some (ADir q sl) -> V dp = Some a -> DirRep a n sl -> kd <= n) \/
         exists d, di = Some d /\ c_ino d = j /\ os' = [(true, d)] /\ entry F dp kd dn j /\ (isdir F i -> empty_dir F j) /\ (isfile F i -> isfile F j)) ->
        exists r s'' x, (cd <- ondst getc ;;
        (if c_dir si then liftp (DirCyclicRenameCheck g i cd) else ret tt) ;;;
        ondst (DirEntryWrite g kd i dn) ;;;
        r <- attempt (onsrc (RedDirEntryDelete g ks)) ;;
        match r with
        | Ok _ =>
          '(_, si') <- liftp (fun s => let '(r, (s', c')) := iset (iset_pinode (c_ino cd)) (s, si) in (Ok (tt, c'), s')) ;;
          ret (i, j, Some si', di)
        | Err ENOSPC =>
          r2 <- attempt (if negb (j =? INODE_INVALID) then ondst (DirEntryWrite g kd j dn) else ondst (RedDirEntryDelete g kd)) ;;
          match r2 with
          | Ok _ => fail ENOSPC
          | Err e => liftp (critical e)
          end
        | Err e => fail e
        end) (s', (cs, od)) = (r, (s'', x)) /\ ren_post g C0 D0 F sp sn dp dn r s'').
    { intros s' di os' HV' JJ. rewrite (bind_ok _ _ _ _ _ (GC s')). rewrite CD.
      assert (T : (isdir F i -> ~ Below F i dp) -> exists r s'' x,
        (ondst (DirEntryWrite g kd i dn) ;;;
        r <- attempt (onsrc (RedDirEntryDelete g ks)) ;;
        match r with
        | Ok _ =>
          '(_, si') <- liftp (fun s => let '(r, (s', c')) := iset (iset_pinode dp) (s, si) in (Ok (tt, c'), s')) ;;
          ret (i, j, Some si', di)
        | Err ENOSPC =>
          r2 <- attempt (if negb (j =? INODE_INVALID) then ondst (DirEntryWrite g kd j dn) else ondst (RedDirEntryDelete g kd)) ;;
          match r2 with
          | Ok _ => fail ENOSPC
          | Err e => liftp (critical e)
          end
        | Err e => fail e
        end) (s', (cs, od)) = (r, (s'', x)) /\ ren_post g C0 D0 F sp sn dp dn r s'').
      { intros NB. eapply (ren_tail g OK C0 D0 V F s' cs od os' sp sn dp dn ks kd i j si di); eauto. }
      destruct (c_dir si) eqn:CDi.
      - destruct DD as (qd & sld & Fd). pose proof (proj1 (PL_dst g OK C0 D0 _ _ _ _ _) HV') as HVd.
        destruct (cyclic_check g OK C0 D0 V F _ s' (dhead cs od) true i qd sld HVd HR W Ri Vi' I0) as [[B R]|[B R]]; [rewrite CD; exact Fd|exact Dird| |]; rewrite CD in B.
        + exists (Err EINVAL), s', (cs, od). split; [unfold bind at 1; now rewrite (liftp_run _ _ _ _ _ R)|].
          left. split; [exists V; split; auto; eapply (VOL_nil g OK); exact HV'|]. do 9 right. left. split; auto. exists i. auto.
        + rewrite (bind_ok _ _ _ _ _ (liftp_run _ _ _ _ _ R)). apply T. auto.
      - rewrite (bind_ok _ _ _ _ _ (eq_refl : ret tt (s', (cs, od)) = _)). apply T. intros (pp & sl & Y). destruct TI as (? & ? & ? & TI). congruence. }
    assert (HV1' : VOL V (PL cs od [(true, si)]) s1).
    { eapply (VOL_perm g OK); [|exact HV1]. unfold PL. destruct od; [eapply perm_trans; [apply perm_swap|apply perm_skip, perm_swap]|apply perm_swap]. }
    destruct J0 as [J0|(J0 & J1 & J2 & J3)].
    + unfold INODE_INVALID at 1. destruct (N.eqb_spec j 0) as [_|?]; [|contradiction]. rewrite (bind_ok _ _ _ _ _ (eq_refl : ret None (s1, (cs, od)) = _)). apply (FIN s1 None []); auto.
      left. split; auto. split; auto. split; auto. destruct J as [(_ & J)|E]; [exact J|]. destruct (entry_not0 F _ _ _ _ W E); auto.
    + assert (EJ : entry F dp kd dn j) by (destruct J as [(? & _)|]; [contradiction|auto]).
      unfold INODE_INVALID at 1. destruct (N.eqb_spec j 0) as [?|_]; [contradiction|].
      destruct (N.eq_dec j sp) as [Ejs|Njs].
      * (* the destination names the source's parent: it is a directory that is not empty *)
        pose proof (VOL_nil g OK C0 D0 _ _ _ _ HV1) as HV0.
        destruct (mount_di V F [] s1 (cs, od) i j si sp sn dp dn HV0 HR) as (r2 & s2 & R2 & X2); auto.
        destruct r2 as [di|e].
        -- exfalso. destruct X2 as (d & _ & _ & _ & Y1 & Y2). destruct ES as (q & sl & A & B). destruct (c_dir si).
           ++ destruct (Y1 TI) as (q' & sl' & A' & B'). rewrite Ejs in A'. rewrite A in A'. injection A' as <- <-. rewrite B' in B. discriminate.
           ++ destruct (Y2 TI) as (? & ? & ? & Y). rewrite Ejs in Y. congruence.
        -- exists (Err e), s2, (cs, od). split; [unfold bind at 1; now rewrite R2|]. left. exact X2.
      * destruct (mount_di V F (PL cs od [(true, si)]) s1 (cs, od) i j si sp sn dp dn HV1' HR) as (r2 & s2 & R2 & X2); auto.
        { unfold PL. destruct od as [cd|]; cbn in *; unfold oino; cbn; intros Y; repeat destruct Y as [Y|Y]; try congruence; try contradiction. }
        destruct r2 as [di|e].
        -- rewrite (bind_ok _ _ _ _ _ R2). destruct X2 as (d & -> & HV2 & CId & Y1 & Y2). apply (FIN s2 (Some d) [(true, d)]).
           ++ eapply (VOL_perm g OK); [|exact HV2]. unfold PL. destruct od.
              ** eapply perm_trans; [apply perm_swap|]. apply perm_skip. eapply perm_trans; [apply perm_swap|]. apply perm_skip. apply perm_swap.
              ** eapply perm_trans; [apply perm_swap|]. apply perm_skip. apply perm_swap.
           ++ right. exists d. repeat (split; auto).
        -- exists (Err e), s2, (cs, od). split; [unfold bind at 1; now rewrite R2|]. left. exact X2.
Qed.

Lemma dirent_rename V F s cs od sp sn dp dn :
  VOL V (PL cs od []) s -> REP V F -> WF F ->
  c_ino cs = sp -> c_ino (dhead cs od) = dp -> (od = None <-> sp = dp) -> c_dirty cs = true -> c_dir cs = true -> c_dirty (dhead cs od) = true -> c_dir (dhead cs od) = true ->
  nozero sn -> nozero dn -> isdir F sp -> isdir F dp ->
  exists r s' x, RedDirEntryRename g sn dn (s, (cs, od)) = (r, (s', x)) /\ ren_post g C0 D0 F sp sn dp dn r s'.
Proof.
  intros HV HR W CS CD ODE Ds Dirs Dd Dird NZs NZd (qs & sls & Fs) (qd & sld & Fd).
  assert (FS0 : FSV F s) by (exists V; split; auto; eapply (VOL_nil g OK); exact HV).
  destruct (REP_dir g OK V F sp qs sls HR Fs) as (as_ & ns & Vs & _ & _ & DRs).
  destruct (REP_dir g OK V F dp qd sld HR Fd) as (ad & nd & Vd & PId & NLd & DRd).
  unfold RedDirEntryRename.
  rewrite (bind_ok _ _ _ _ _ (onsrc_run getc s cs od (Ok cs) s cs eq_refl)).
  assert (DH : ondst getc (s, (cs, od)) = (Ok (dhead cs od), (s, (cs, od)))) by (destruct od; reflexivity).
  rewrite (bind_ok _ _ _ _ _ DH).
  assert (MS : CINODE_IS_DIRTY g cs = true) by (destruct (VOL_mounted g OK C0 D0 false _ _ _ _ _ HV) as [_ M]; congruence).
  pose proof (proj1 (PL_dst g OK C0 D0 _ _ _ _ _) HV) as HVd.
  assert (MD : CINODE_IS_DIRTY g (dhead cs od) = true) by (destruct (VOL_mounted g OK C0 D0 false _ _ _ _ _ HVd) as [_ M]; congruence).
  rewrite MS, MD, Dirs, Dird. cbn [negb orb].
  destruct (isdots dn) eqn:DOT. { exists (Err EINVAL), s. eexists. split; [reflexivity|]. left. split; auto. do 4 right. left. auto. }
  (* source name *)
  destruct (vol_lookup g OK C0 D0 false V cs _ s sn as_ ns sls HV Dirs ltac:(congruence) DRs NZs) as (r1 & cs1 & R1 & SM1 & HV1 & LR1).
  destruct (csame_facts g OK _ _ SM1) as (I1 & Dt1 & Dir1 & Ci1).
  unfold lookup_res in LR1.
  destruct (N.eqb_spec (nlen sn) 0) as [Z|Z]. { subst r1. exists (Err EINVAL), s. eexists. split; [unfold bind at 1; now rewrite (onsrc_run _ _ _ _ _ _ _ R1)|]. left. split; auto. do 2 right. left. left. auto. }
  destruct (N.ltb_spec (NMAX g) (nlen sn)) as [L|L]. { subst r1. exists (Err ENAMETOOLONG), s. eexists. split; [unfold bind at 1; now rewrite (onsrc_run _ _ _ _ _ _ _ R1)|]. left. split; auto. do 2 right. left. right. auto. }
  destruct LR1 as [(ks & i & Es & ->)|(NM & f & -> & _)].
  2:{ exists (Err ENOENT), s. eexists. split; [rewrite (bind_ok _ _ _ _ _ (onsrc_run _ _ _ _ _ _ _ R1)); reflexivity|]. left. split; auto. do 5 right. left. split; auto. split; [exists qs, sls; auto|].
      intros i (k & q' & sl' & E & E'). rewrite Fs in E. injection E as <- <-. exact (NM _ _ E'). }
  rewrite (bind_ok _ _ _ _ _ (onsrc_run _ _ _ _ _ _ _ R1)). cbv beta iota. clear R1.
  assert (ES : entry F sp ks sn i) by (exists qs, sls; auto).
  assert (HV1' : VOL V (PL cs1 od []) s) by exact HV1. clear HV1. rename HV1' into HV1.
  assert (P : c_ino cs1 = sp /\ c_dirty cs1 = true /\ c_dir cs1 = true /\ c_ino (dhead cs1 od) = dp /\ c_dirty (dhead cs1 od) = true /\ c_dir (dhead cs1 od) = true).
  { destruct od; cbn in *; repeat split; congruence. }
  destruct P as (P1 & P2 & P3 & P4 & P5 & P6). clear cs HV HVd CS CD Ds Dirs Dd Dird DH MS MD SM1 I1 Dt1 Dir1 Ci1. rename cs1 into cs.
  (* destination name *)
  apply (PL_dst g OK) in HV1.
  destruct (vol_lookup g OK C0 D0 false V (dhead cs od) _ s dn ad nd sld HV1 P6 ltac:(congruence) DRd NZd) as (r1 & cd1 & R1 & SM1 & HV2 & LR1).
  destruct (csame_facts g OK _ _ SM1) as (I1 & Dt1 & Dir1 & Ci1).
  unfold lookup_res in LR1.
  destruct (N.eqb_spec (nlen dn) 0) as [Zd|Zd]. { subst r1. exists (Err EINVAL), s. eexists. split; [unfold bind at 1; now rewrite (ondst_run _ _ _ _ _ _ _ R1)|]. left. split; auto. do 3 right. left. left. auto. }
  destruct (N.ltb_spec (NMAX g) (nlen dn)) as [Ld|Ld]. { subst r1. exists (Err ENAMETOOLONG), s. eexists. split; [unfold bind at 1; now rewrite (ondst_run _ _ _ _ _ _ _ R1)|]. left. split; auto. do 3 right. left. right. auto. }
  apply (PL_put g OK) in HV2. destruct (dput cs od cd1) as [cs2 od2] eqn:DP. cbn [fst snd] in HV2.
  assert (Q : c_ino cs2 = sp /\ c_dirty cs2 = true /\ c_dir cs2 = true /\ c_ino (dhead cs2 od2) = dp /\ c_dirty (dhead cs2 od2) = true /\ c_dir (dhead cs2 od2) = true /\ (od2 = None <-> sp = dp)).
  { unfold dput in DP. destruct od as [cd|]; injection DP as <- <-; cbn in *.
    - repeat split; try congruence. intros Y. destruct ODE as [_ Q]. specialize (Q Y). discriminate.
    - assert (sp = dp) by (apply ODE; auto). repeat split; try congruence. }
  destruct Q as (Q1 & Q2 & Q3 & Q4 & Q5 & Q6 & Q7). assert (DD : isdir F dp) by (exists qd, sld; auto).
  destruct LR1 as [(kd & j & Ed & ->)|(NM & f & -> & X)]; rewrite (bind_ok _ _ _ _ _ (ondst_run _ _ _ _ _ _ _ R1)), DP; cbv beta iota.
  - rewrite (bind_ok _ _ _ _ _ (eq_refl : ret (kd, j) (s, (cs2, od2)) = _)). cbv beta iota.
    apply (ren_mid V F s cs2 od2 sp sn dp dn ks kd i j); auto. { split; auto. split; auto. clear - Zd. lia. } right. exists qd, sld; auto.
  - assert (NN : forall x, ~ named F dp dn x). { intros x (k & q' & sl' & E & E'). rewrite Fd in E. injection E as <- <-. exact (NM _ _ E'). }
    destruct X as [(-> & _ & Y)|(Y1 & Y2 & Y3 & Y4)].
    + exists (Err ENOSPC), s. eexists. split; [reflexivity|]. left. split; auto. do 10 right. split; auto.
      intros k Hk. specialize (Y k Hk). destruct (sld k) as [[nm j]|] eqn:E; [|congruence]. exists nm, j, qd, sld; auto.
    + rewrite (proj2 (N.eqb_neq f DIR_INDEX_INVALID) Y2).
      rewrite (bind_ok _ _ _ _ _ (eq_refl : ret (f, INODE_INVALID) (s, (cs2, od2)) = _)). cbv beta iota.
      apply (ren_mid V F s cs2 od2 sp sn dp dn ks f i 0); auto. { split; auto. split; auto. clear - Zd. lia. } left. split; auto. split; auto. split.
      { intros nm x (q' & sl' & E & E'). rewrite Fd in E. injection E as <- <-. congruence. } split; auto.
      intros a n0 q sl A B DR. assert (a = ad) by congruence. subst a. rewrite Fd in A. injection A as <- <-.
      pose proof (dr_size _ _ _ _ DR) as S1. pose proof (dr_size _ _ _ _ DRd) as S2. rewrite S1 in S2.
      assert (n0 = nd). { rewrite <- (idx_dsize g OK n0), <- (idx_dsize g OK nd) by (apply DR || apply DRd). now rewrite S2. } subst n0. exact Y3.
Qed.

Theorem core_rename F s sp sn dp dn : FSV F s -> WF F -> nozero sn -> nozero dn ->
  exists r s', CoreRename g sp sn dp dn s = (r, s') /\
    match r with
    | Ok _ => exists F', op_rename F sp sn dp dn F' /\ FSV F' s'
    | Err e => FSV F s' /\ rename_err g F sp sn dp dn e \/ e = ENOSPC /\ FSV F s'
    end.
Proof.
  intros (V & HV & HR) W NZs NZd. unfold CoreRename. rewrite (VOL_ro g OK C0 D0 _ _ _ _ HV).
  assert (FS0 : FSV F s) by (exists V; auto).
  destruct (mount_dir g OK C0 D0 false V F [] s sp true HV HR (fun x => x)) as [(e & BD & RN)|(qs & sls & as_ & ns & cs & s1 & Fs & Vs & DRs & _ & _ & R1 & HV1 & CI1 & CD1 & CB1 & _)].
  { exists (Err e), s. split; [unfold bind at 1; now rewrite RN|]. left. split; auto. left. auto. }
  rewrite (bind_ok _ _ _ _ _ R1). assert (DS : isdir F sp) by (exists qs, sls; auto).
  assert (FS1 : FSV F s1) by (exists V; split; auto; eapply (VOL_nil g OK); exact HV1).
  assert (DM : (exists e, bad_dir F dp e /\ (if sp =? dp then ret None else d <- RedInodeMount g dp FTYPE_DIR true ;; ret (Some d)) s1 = (Err e, s1)) \/
     exists od s2, (if sp =? dp then ret None else d <- RedInodeMount g dp FTYPE_DIR true ;; ret (Some d)) s1 = (Ok od, s2) /\ VOL V (PL cs od []) s2 /\ isdir F dp /\
       c_ino (dhead cs od) = dp /\ (od = None <-> sp = dp) /\ c_dirty (dhead cs od) = true /\ c_dir (dhead cs od) = true).
  { destruct (N.eqb_spec sp dp) as [E|NE].
    - right. exists None, s1. split; [reflexivity|]. split; [exact HV1|]. split; [congruence|]. cbn. repeat split; congruence.
    - destruct (mount_dir g OK C0 D0 false V F [(true, cs)] s1 dp true HV1 HR) as [(e & BD & RN)|(qd & sld & ad & nd & cd & s2 & Fd & Vd & DRd & _ & _ & R2 & HV2 & CI2 & CD2 & CB2 & _)].
      { cbn. unfold oino. cbn. intros [X|[]]. congruence. }
      + left. exists e. split; auto. unfold bind. now rewrite RN.
      + right. exists (Some cd), s2. split; [now rewrite (bind_ok _ _ _ _ _ R2)|]. split; [apply (VOL_swap g OK); exact HV2|]. split; [exists qd, sld; auto|]. cbn. repeat split; congruence. }
  destruct DM as [(e & BD & RN)|(od & s2 & R2 & HV2 & DD & A1 & A2 & A3 & A4)].
  { exists (Err e), s1. split; [unfold bind at 1; now rewrite RN|]. left. split; auto. right. left. auto. }
  rewrite (bind_ok _ _ _ _ _ R2).
  destruct (dirent_rename V F s2 cs od sp sn dp dn HV2 HR W) as (r & s3 & x & R3 & X); auto.
  assert (R3' : (fun s0 : st => let '(r, (s', _)) := RedDirEntryRename g sn dn (s0, (cs, od)) in (r, s')) s2 = (r, s3)) by (rewrite R3; reflexivity).
  destruct r as [[[[i j] o] od']|e].
  2:{ exists (Err e), s3. split; [unfold bind at 1; now rewrite R3'|]. exact X. }
  rewrite (bind_ok _ _ _ _ _ R3'). cbv beta iota. cbn in X.
  destruct X as [(X1 & X2 & X3 & X4)|(ks & kd & X1 & X2 & X3 & X4 & V' & HR' & X5)].
  - destruct X1 as [ks X1]. destruct X2 as [kd X2]. 
    assert (T : (match od' with Some d => if negb (j =? INODE_INVALID) && negb (j =? i) then critical_assert (finish (RedInodeLinkDec g) d) else ret tt | None => ret tt end) s3 = (Ok tt, s3)).
    { destruct od'; auto. subst j. rewrite N.eqb_refl. cbn [negb]. now rewrite andb_false_r. }
    rewrite T. exists (Ok tt), s3. split; auto. exists F. split; auto. split; auto. exists ks, kd, i. split; auto. left. split; auto. exists kd; auto.
  - assert (OP : op_rename F sp sn dp dn (unname (set_parent (set_slot (set_slot F dp kd (Some (dn, i))) sp ks None) i dp) j)).
    { split; auto. exists ks, kd, i. split; auto. right. split; auto. exists j. split; auto. }
    destruct od' as [d|].
    + destruct X5 as (J0 & CJ & HV5). unfold INODE_INVALID. destruct (N.eqb_spec j 0); [contradiction|]. destruct (N.eqb_spec j i); [congruence|]. cbn [negb andb].
      destruct (linkdec_unname g OK C0 D0 false _ _ _ _ _ HV5 HR') as (V6 & s6 & c6 & R6 & HV6 & HR6). rewrite CJ in HR6.
      exists (Ok tt), s6. split; [unfold critical_assert; rewrite (finish_run _ _ _ _ _ _ R6); reflexivity|]. eexists. split; [exact OP|]. exists V6. auto.
    + destruct X5 as (J0 & HV5). exists (Ok tt), s3. split; [reflexivity|]. eexists. split; [exact OP|].
      exists V'. split; auto. unfold unname. subst j. assert (V' 0 = None). { destruct (V' 0) as [a0|] eqn:V0; auto. pose proof (VOL_valid g OK C0 D0 false V' [] s3 0 a0 HV5 V0) as Y. discriminate. }
      rewrite (REP_none' g OK V' _ 0); auto.
Qed.
End CoreP5.
