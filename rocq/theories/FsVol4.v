(** Mounting, creating and deleting inodes on the volume of files. *)
From Verif Require Import Base Count FsState FsImap FsInode FsData FsTree FsImapProof FsWp FsInv FsStep FsSeek FsBranch FsRead FsWrite FsWrite2 FsTrunc FsTrunc2 FsTrunc3 FsTrunc4 FsTrunc5 FsVol FsVol2 FsVol3.
Ltac Zify.zify_post_hook ::= idtac.

Section Vol.
Variable g : cfg.
Hypothesis OK : cfg_ok g.
Set Default Proof Using "OK".
Notation LM := (INODE_SIZE_MAX g).
Notation T := (T g).
Notation lv := (lv g).
Notation IB := (InodeBlock g).

Lemma CW0_fresh pm c : c_inited c = false -> c_pd c = false -> c_pi c = false -> c_pb c = false -> CW0 g pm c.
Proof. intros A B C D. constructor; congruence. Qed.

Variable C0 : mroot.
Variable D0 : N -> blk.
Variable R0 : bool.
Notation Core := (Core g C0 D0 R0).
Notation Idle := (Idle g C0 D0 R0).
Notation KT := (KT g C0 D0 R0).
Notation VP := (VP g C0 D0 R0).
Notation VOL := (VOL g C0 D0 R0).

Lemma VOL_T V os s i : VOL V os s ->
  match V i with Some a => exists io, T s i = Some io /\ i_dir io = a_dir a | None => lv s i = false end.
Proof.
  intros H. pose proof (VOL_lv g OK _ _ _ _ _ _ i H) as L. destruct H as (pm & H1 & H2 & H3 & H4). specialize (H2 i).
  unfold absV in H2. destruct (V i) as [a|]; auto. destruct (T s i) as [io|]; [|destruct H2]. exists io. split; auto. apply H2.
Qed.
Lemma VOL_valid V os s i a : VOL V os s -> V i = Some a -> INODE_IS_VALID g i = true.
Proof.
  intros H E. pose proof (VOL_lv g OK _ _ _ _ _ _ i H) as L. rewrite E in L. eapply (lv_valid g OK); eauto.
Qed.

Lemma vol_mount_nb V os s i ty : VOL V os s -> ~ In i (map oino os) ->
  match V i with
  | None => RedInodeMount g i ty false s = (Err EBADF, s) /\ RedInodeMount g i ty true s = (Err EBADF, s)
  | Some a =>
    match a_dir a, ty with
    | false, FTYPE_DIR => RedInodeMount g i ty false s = (Err ENOTDIR, s) /\ RedInodeMount g i ty true s = (Err ENOTDIR, s)
    | true, FTYPE_FILE => RedInodeMount g i ty false s = (Err EISDIR, s) /\ RedInodeMount g i ty true s = (Err EISDIR, s)
    | _, _ => exists c, RedInodeMount g i ty false s = (Ok c, s) /\
        RedInodeMount g i ty true s = match RedInodeBranch g (s, c) with
                                 | (Ok _, (s', c')) => (Ok c', s')
                                 | (Err e, (s', _)) => (Err e, s') end /\
        VOL V ((true, c) :: os) s /\ c_ino c = i /\ c_dir c = a_dir a /\ c_dirty c = false
    end
  end.
Proof.
  intros H NI. pose proof (VOL_T V os s i H) as HT. destruct (V i) as [a|] eqn:EV.
  - destruct HT as (io & HT & Ed). pose proof (VOL_valid _ _ _ _ _ H EV) as Vi.
    destruct (CurCopy_ok g OK i s io HT) as (w & Hw & R1 & CU & DK).
    assert (RUN : forall br, RedInodeMount g i ty br s = (match i_dir io, ty with
      | false, FTYPE_DIR => fail ENOTDIR
      | true, FTYPE_FILE => fail EISDIR
      | _, _ =>
        let c := cset_buf i true (InodeBlock g i w) io (cur s (IB i 0) && negb (com s (IB i 0)) || cur s (IB i 1) && negb (com s (IB i 1))) false (i_dir io) (cin0 i) in
        if br : bool then (fun s => match RedInodeBranch g (s, c) with
                                 | (Ok _, (s', c')) => (Ok c', s')
                                 | (Err e, (s', _)) => (Err e, s') end)
        else ret c
      end) s).
    { intros br. unfold RedInodeMount. rewrite Vi. cbn [negb]. rewrite (bind_ok _ _ _ _ _ R1). unfold get_inode. unfold bind at 1. rewrite DK.
      now rewrite (bind_ok _ _ _ _ _ (IsBranched_ok g OK i s Vi)). }
    rewrite <- Ed. rewrite (RUN false), (RUN true). set (c := cset_buf i _ _ _ _ _ _ _).
    assert (VO : VOL V ((true, c) :: os) s).
    { destruct H as (pm & H1 & H2 & H3 & H4). exists pm. split; [|split; [|split]]; auto.
      - intros o [<-|X]; auto. destruct (k_slot H1 i Vi) as [S1 S2]. split; [|split; [exact HT|split; [apply CW0_fresh; reflexivity|discriminate]]].
        constructor; auto; [split; eauto| |discriminate]. cbn.
        assert (D : (w = 0 \/ w = 1)) by lia. destruct D as [-> | ->].
        + rewrite CU in S1 |- *. cbn in S1 |- *. rewrite S1. cbn. now rewrite orb_false_r.
        + rewrite CU, andb_true_r in S1. rewrite S1, CU. reflexivity.
      - cbn. constructor; auto. }
    destruct (i_dir io) eqn:EI, ty; try (split; reflexivity); exists c; (split; [reflexivity|split; [reflexivity|split; [exact VO|split; [reflexivity|split; [reflexivity|reflexivity]]]]]).
  - unfold RedInodeMount. destruct (INODE_IS_VALID g i) eqn:Vi; cbn [negb]; auto.
    rewrite !(bind_err _ _ _ _ _ (CurCopy_none g OK i s Vi HT)). auto.
Qed.

Lemma vol_mount V os s i ty br : VOL V os s -> ~ In i (map oino os) ->
  match V i with
  | None => RedInodeMount g i ty br s = (Err EBADF, s)
  | Some a =>
    match a_dir a, ty with
    | false, FTYPE_DIR => RedInodeMount g i ty br s = (Err ENOTDIR, s)
    | true, FTYPE_FILE => RedInodeMount g i ty br s = (Err EISDIR, s)
    | _, _ => exists c s', RedInodeMount g i ty br s = (Ok c, s') /\
        VOL V ((true, c) :: os) s' /\ c_ino c = i /\ c_dir c = a_dir a /\ c_dirty c = br /\ (br = false -> s' = s) /\
        m_free (s_w s') = m_free (s_w s) /\ s_afree s' = s_afree s
    end
  end.
Proof.
  intros H NI. pose proof (vol_mount_nb V os s i ty H NI) as M. destruct (V i) as [a|]; [|destruct br; apply M].
  assert (X : (exists c, RedInodeMount g i ty false s = (Ok c, s) /\
        RedInodeMount g i ty true s = match RedInodeBranch g (s, c) with
                                 | (Ok _, (s', c')) => (Ok c', s')
                                 | (Err e, (s', _)) => (Err e, s') end /\
        VOL V ((true, c) :: os) s /\ c_ino c = i /\ c_dir c = a_dir a /\ c_dirty c = false) ->
     exists c s', RedInodeMount g i ty br s = (Ok c, s') /\
        VOL V ((true, c) :: os) s' /\ c_ino c = i /\ c_dir c = a_dir a /\ c_dirty c = br /\ (br = false -> s' = s) /\
        m_free (s_w s') = m_free (s_w s) /\ s_afree s' = s_afree s).
  { intros (c & R1 & R2 & VO & E1 & E2 & E3). destruct br.
    - destruct (vol_branch g OK _ _ _ _ _ _ _ _ VO) as (s' & c' & R & VO' & A1 & A2 & A3 & A4 & A5 & A6).
      exists c', s'. rewrite R2, R. split; [reflexivity|]. split; [exact VO'|]. rewrite A2, A4. repeat split; auto. discriminate.
    - exists c, s. rewrite R1. repeat split; auto. }
  destruct (a_dir a), ty; try (destruct br; apply M); apply X; exact M.
Qed.

Lemma fbyte_hi pm s s' j io off : Idle pm s -> T s j = Some io -> off < i_size io ->
  (forall b, FA g <= b -> dk s' b = dk s b) -> fbyte g pm s' j off = fbyte g pm s j off.
Proof.
  intros I HT Ho HD. destruct (Idle_in g OK _ _ _ _ _ _ _ I HT) as [K _]. eapply (fbyte_high g OK); [exact K| |exact HD].
  pose proof (k_lim0 K) as [_ X Y]. lia.
Qed.

(** * RedInodeCreate *)
Lemma create_at V os s i pino isdir : VOL V os s -> INODE_IS_VALID g i = true -> V i = None ->
  exists c s', (w <- InodeGetWriteableCopy g i ;;
     (let nb := InodeBlock g i w in
      modify (dk_write nb (BInode inode0)) ;;;
      InodeBitSet g i w true ;;;
      (let io := mkInode 0 0 isdir 1 pino (fun _ => 0) in
       modify (dk_write nb (BInode io)) ;;;
       modify (fun s => set_w (mset_freei (m_freei (s_w s) - 1) (s_w s)) s) ;;;
       ret (cset_buf i true nb io true true isdir (cin0 i))))) s = (Ok c, s') /\
    VOL (upd V i (Some (anew isdir pino))) ((true, c) :: os) s' /\ c_ino c = i /\ c_dir c = isdir /\ c_dirty c = true /\
    i_nlink (c_i c) = 1 /\
    m_free (s_w s') = m_free (s_w s) /\ s_afree s' = s_afree s /\ ~ In i (map oino os).
Proof.
  intros H Vi Ei. pose proof (VOL_lv g OK _ _ _ _ _ _ i H) as HL. rewrite Ei in HL. destruct H as (pm & I & HV & HQ & HN).
  pose proof (valid_iff g OK i) as VI. apply VI in Vi as Vr.
  destruct (Idle_free g OK C0 D0 R0 pm s i I ltac:(lia) HL) as [K P0].
  destruct (k_slot I i Vi) as [SC SM].
  destruct (WrCopy_ok g OK i s Vi SM) as (w & Hw & RW & CM_ & _).
  assert (CN : forall v, v <= 1 -> cur s (IB i v) = false).
  { unfold FsInv.lv in HL. rewrite Vi in HL. cbn in HL. apply orb_false_iff in HL as [A B].
    intros v Hv. assert (D : (v = 0 \/ v = 1)) by lia. destruct D as [-> | ->]; auto. }
  set (nb := IB i w) in *. set (io := mkInode 0 0 isdir 1 pino (fun _ => 0)).
  set (s1 := dk_write nb (BInode inode0) s).
  assert (I1 : ImapInv g s1) by (eapply (ImapInv_dk g OK); [| | |apply I]; reflexivity).
  pose proof (BitSet_ok g OK i w true s1 Vi Hw (CN w Hw) I1) as RB. fold nb in RB.
  pose proof (slot_rng g OK i w Vi Hw) as RG. fold nb in RG.
  assert (I2 : ImapInv g (bset g nb true s1)).
  { apply (bset_inv g); auto; [pose proof (FA_BC g OK); lia|exact (CN w Hw)]. }
  set (s2 := bset g nb true s1) in *.
  set (s4 := set_w (mset_freei (m_freei (s_w s2) - 1) (s_w s2)) (dk_write nb (BInode io) s2)).
  set (c := cset_buf i true nb io true true isdir (cin0 i)).
  exists c, s4. split.
  { rewrite (bind_ok _ _ _ _ _ RW). cbv zeta. fold nb. unfold bind at 1, modify at 1. fold s1. rewrite (bind_ok _ _ _ _ _ RB). reflexivity. }
  assert (CU : forall x, cur s4 x = if x =? nb then true else cur s x).
  { intros x. change (cur s4 x) with (cur s2 x). unfold s2. rewrite (bset_cur g). reflexivity. }
  assert (CO : forall x, com s4 x = com s x).
  { intros x. change (com s4 x) with (com s2 x). unfold s2. rewrite (bset_com g). reflexivity. }
  assert (DK : forall x, dk s4 x = if x =? nb then BInode io else dk s x).
  { intros x. unfold s4. cbn. unfold upd at 1. destruct (N.eqb_spec x nb); auto. unfold s2. rewrite (bset_dk g). cbn. now rewrite upd_other. }
  assert (F : forall x, isslot g i x \/ cur s4 x = cur s x /\ dk s4 x = dk s x).
  { intros x. rewrite CU, DK. destruct (N.eqb_spec x nb) as [->|]; auto. left. split; eauto. }
  assert (HT : T s4 i = Some io).
  { unfold FsInv.T. rewrite Vi, !CU, !DK. unfold nb. assert (D : (w = 0 \/ w = 1)) by lia. destruct D as [-> | ->].
    - now rewrite N.eqb_refl.
    - destruct (N.eqb_spec (IB i 0) (IB i 1)) as [X|]; [apply (slot_inj g OK) in X; auto; try lia|]. rewrite (CN 0) by lia.
      now rewrite N.eqb_refl. }
  assert (FR : frI g i s s4) by (intros x _; auto).
  assert (FI : m_freei (s_w s4) = count (fun k => negb (lv s4 k)) 2 (2 + ICNT g)).
  { pose proof (count_change_in (fun k => negb (lv s4 k)) (fun k => negb (lv s k)) 2 (2 + ICNT g) i Vr) as CC.
    cbv beta in CC. rewrite HL, (T_lv g OK _ _ _ HT) in CC. cbn [negb] in CC.
    assert (E : m_freei (s_w s4) = m_freei (s_w s) - 1) by (unfold s4, s2; cbn; now rewrite (bset_freei g)).
    rewrite E, (k_freei I). assert (CC' := CC ltac:(intros k _ Hk; now rewrite (frI_lv g OK i s s4))). clear CC. lia. }
  assert (MF : m_free (s_w s4) = m_free (s_w s) /\ s_afree s4 = s_afree s).
  { unfold s4, s2. cbn. rewrite (bset_free g), (bset_afree g). destruct (N.leb_spec (FA g) nb); [lia|]. auto. }
  assert (I' : Idle pm s4).
  { apply (Core_slots g OK C0 D0 R0 i inode0 0 pm s s4 K Vi); auto; try apply MF.
    - destruct I2 as [A B C]. unfold s4. constructor; auto.
    - unfold s4, s2. cbn. now rewrite (bset_c g).
    - intros x Hx. rewrite DK. destruct (N.eqb_spec x nb) as [->|]; auto. congruence.
    - intros x. unfold s4, s2. cbn. rewrite (bset_wr g). cbn. unfold upd. destruct (N.eqb_spec x nb) as [->|]; auto.
      intros _. right. split; [exact CM_|]. pose proof (FA_BC g OK). lia.
    - unfold s4, s2. cbn. now rewrite (bset_ro g).
    - unfold s4, s2. cbn. now rewrite (bset_res g).
    - rewrite !CU, !CN by lia. unfold nb. assert (D : (w = 0 \/ w = 1)) by lia. destruct D as [-> | ->].
      + destruct (N.eqb_spec (IB i 1) (IB i 0)) as [X|]; [apply (slot_inj g OK) in X; auto; try lia|]. now rewrite N.eqb_refl.
      + destruct (N.eqb_spec (IB i 0) (IB i 1)) as [X|]; [apply (slot_inj g OK) in X; auto; try lia|]. reflexivity.
    - left. exists io. split; [exact HT|]. split; [intros; cbn; now rewrite P0|]. split.
      + constructor; [intros p; rewrite P0; congruence|cbn; lia|cbn; lia].
      + cbn. symmetry. apply count_0. intros. now rewrite P0.
    - unfold s4, s2. cbn. apply (bset_br g). }
  assert (NI : ~ In i (map oino os)).
  { intros X. apply in_map_iff in X as (o & E & Ho). destruct (HQ _ Ho) as (_ & X & _). unfold oino in E. rewrite E in X.
    rewrite (T_lv g OK _ _ _ X) in HL. discriminate. }
  split; [|repeat split; auto; apply MF]. exists pm. split; [exact I'|]. split; [|split].
  - intros j. unfold upd. destruct (N.eqb_spec j i) as [->|Hj].
    + unfold absV. rewrite HT. repeat split. intros x. cbn. unfold vb. destruct (N.ltb_spec x 0); [lia|auto].
    + eapply oeq_trans; [|apply HV]. apply (absV_frame g OK i); auto. intros x Hx off Ho. eapply fbyte_hi; eauto.
      intros b Hb. rewrite DK. destruct (N.eqb_spec b nb); [lia|auto].
  - intros o [<-|X].
    + split; [|split; [exact HT|split; [apply CW0_fresh; reflexivity|discriminate]]].
      constructor.
      * exact Vi.
      * reflexivity.
      * split; [exact Vi|]. exists w. auto.
      * change (cur s4 nb = true). rewrite CU, N.eqb_refl. auto.
      * change (true = negb (com s4 nb)). rewrite CO, CM_. auto.
      * intros _. change (com s4 nb = false /\ dk s4 nb = BInode io). rewrite CO, DK, N.eqb_refl. auto.
    + eapply (CQ_frame g OK i); [exact FR|auto|eapply (Core_c g OK); [exact I|exact I']| |auto].
      intros E. apply NI. rewrite <- E. now apply in_map.
  - cbn. constructor; auto.
Qed.

Lemma vol_create V os s pino isdir : VOL V os s -> INODE_IS_VALID g pino = true -> V INODE_ROOTDIR <> None ->
  ((forall i, INODE_IS_VALID g i = true -> V i <> None) /\ RedInodeCreate g INODE_INVALID pino isdir s = (Err ENFILE, s)) \/
  exists i c s', INODE_IS_VALID g i = true /\ V i = None /\ ~ In i (map oino os) /\
    RedInodeCreate g INODE_INVALID pino isdir s = (Ok c, s') /\
    VOL (upd V i (Some (anew isdir pino))) ((true, c) :: os) s' /\ c_ino c = i /\ c_dir c = isdir /\ c_dirty c = true /\
    i_nlink (c_i c) = 1 /\
    m_free (s_w s') = m_free (s_w s) /\ s_afree s' = s_afree s.
Proof.
  intros H VP_ HR. unfold RedInodeCreate. rewrite VP_. cbn [negb andb]. change (INODE_INVALID =? INODE_INVALID) with true. cbn iota.
  assert (FI : m_freei (s_w s) = count (fun k => negb (lv s k)) 2 (2 + ICNT g)) by (destruct H as (pm & I & _); apply (k_freei I)).
  assert (LVs : forall i, INODE_IS_VALID g i = true -> lv s i = false -> V i = None).
  { intros i Vi HL. rewrite (VOL_lv g OK _ _ _ _ _ _ i H) in HL. destruct (V i); congruence. }
  assert (LV1 : forall i, lv s i = true -> V i <> None).
  { intros i HL. rewrite (VOL_lv g OK _ _ _ _ _ _ i H) in HL. destruct (V i); congruence. }
  unfold InodeFindFree. destruct (N.eqb_spec (m_freei (s_w s)) 0) as [E|E].
  - left. split.
    + intros i Vi. apply LV1. apply (valid_iff g OK) in Vi. rewrite FI in E. pose proof (count_0_inv _ _ _ i E Vi) as X.
      now apply negb_false_iff in X.
    + unfold bind at 1. rewrite E. reflexivity.
  - right. destruct (find_free_inode_spec g OK s (N.to_nat (INODE_FIRST_VALID + ICNT g - INODE_FIRST_FREE)) INODE_FIRST_FREE) as [(k & A & B & C)|A].
    { unfold INODE_FIRST_VALID, INODE_FIRST_FREE. lia. } { unfold INODE_FIRST_VALID, INODE_FIRST_FREE. pose proof (ok_ICNT g OK). lia. }
    + assert (Vk : INODE_IS_VALID g k = true) by (apply (valid_iff g OK); unfold INODE_FIRST_VALID, INODE_FIRST_FREE in *; lia).
      destruct (create_at V os s k pino isdir H Vk (LVs k Vk B)) as (c & s' & R & VO & A1 & A2 & A3 & A4 & A5 & A6 & A7).
      exists k, c, s'. split; [exact Vk|]. split; [auto|]. split; [auto|]. split; [|repeat split; auto].
      unfold bind at 1. destruct (N.eqb_spec (m_freei (s_w s)) 0); [congruence|]. rewrite C. exact R.
    + exfalso. apply E. rewrite FI. apply count_0. intros x Hx. apply negb_false_iff.
      destruct (N.eq_dec x 2) as [->|].
      * destruct (lv s 2) eqn:L2; auto. exfalso. apply HR. apply LVs; auto. apply (valid_iff g OK). auto.
      * apply A. unfold INODE_FIRST_VALID, INODE_FIRST_FREE in *. lia.
Qed.
Lemma vol_create_at V os s i pino isdir : VOL V os s -> (INODE_IS_VALID g pino = true \/ pino = INODE_INVALID /\ i = INODE_ROOTDIR) ->
  INODE_IS_VALID g i = true -> V i = None ->
  exists c s', RedInodeCreate g i pino isdir s = (Ok c, s') /\
    VOL (upd V i (Some (anew isdir pino))) ((true, c) :: os) s' /\ c_ino c = i /\ c_dir c = isdir /\ c_dirty c = true /\
    i_nlink (c_i c) = 1 /\ m_free (s_w s') = m_free (s_w s) /\ s_afree s' = s_afree s.
Proof.
  intros H HP Vi Ei. unfold RedInodeCreate.
  assert (E : negb (INODE_IS_VALID g pino) && (negb (pino =? INODE_INVALID) || negb (i =? INODE_ROOTDIR)) = false).
  { destruct HP as [->|[-> ->]]; auto. }
  rewrite E. assert (E0 : i =? INODE_INVALID = false) by (apply (valid_iff g OK) in Vi; apply N.eqb_neq; unfold INODE_INVALID; lia).
  rewrite E0, Vi. pose proof (VOL_lv g OK _ _ _ _ _ _ i H) as HL. rewrite Ei in HL.
  destruct (create_at V os s i pino isdir H Vi Ei) as (c & s' & R & VO & A1 & A2 & A3 & A4 & A5 & A6 & A7).
  exists c, s'. split; [|repeat split; auto]. unfold bind at 1, bind at 1. rewrite (IsFree_ok g OK i s Vi), HL. cbn [negb]. exact R.
Qed.
Lemma vol_create_used V os s i pino isdir a : VOL V os s -> (INODE_IS_VALID g pino = true \/ pino = INODE_INVALID /\ i = INODE_ROOTDIR) ->
  V i = Some a -> RedInodeCreate g i pino isdir s = (Err EEXIST, s).
Proof.
  intros H HP Ei. pose proof (VOL_valid _ _ _ _ _ H Ei) as Vi. unfold RedInodeCreate.
  assert (E : negb (INODE_IS_VALID g pino) && (negb (pino =? INODE_INVALID) || negb (i =? INODE_ROOTDIR)) = false).
  { destruct HP as [->|[-> ->]]; auto. }
  rewrite E. assert (E0 : i =? INODE_INVALID = false) by (apply (valid_iff g OK) in Vi; apply N.eqb_neq; unfold INODE_INVALID; lia).
  rewrite E0, Vi. pose proof (VOL_lv g OK _ _ _ _ _ _ i H) as HL. rewrite Ei in HL.
  unfold bind at 1, bind at 1. rewrite (IsFree_ok g OK i s Vi), HL. reflexivity.
Qed.

(** * RedInodeFree *)
Lemma free_ino pm s c io L : Core (c_ino c) io L pm Dnone s -> CM g s c -> (forall p, pm (c_ino c) p = 0) ->
  exists s' c', RedInodeFree g (s, c) = (Ok tt, (s', c')) /\ Idle pm s' /\ lv s' (c_ino c) = false /\ frI g (c_ino c) s s' /\
    (forall b, FA g <= b -> dk s' b = dk s b) /\ m_free (s_w s') = m_free (s_w s) /\ s_afree s' = s_afree s.
Proof.
  intros K M P0. set (i := c_ino c) in *. pose proof (cm_val _ _ _ M) as Vi. fold i in Vi.
  pose proof (valid_iff g OK i) as VI. apply VI in Vi as Vr.
  destruct (cm_slot _ _ _ M) as (_ & w & Hw & EB). fold i in EB. pose proof (cm_cur _ _ _ M) as CU. rewrite EB in CU.
  destruct (k_slot K i Vi) as [SC SM].
  pose proof (CM_lv g OK _ _ M) as LVi. fold i in LVi.
  pose proof (slot_rng g OK i w Vi Hw) as RG.
  set (s1 := discard_block (c_blk c) s).
  assert (C1 : forall x, cur s1 x = cur s x) by (intros; unfold s1, discard_block; destruct (com s (c_blk c)); reflexivity).
  assert (CM1 : forall x, com s1 x = com s x) by (intros; unfold s1, discard_block; destruct (com s (c_blk c)); reflexivity).
  assert (W1 : s_w s1 = s_w s /\ s_c s1 = s_c s /\ s_afree s1 = s_afree s /\ (forall x, s_wr s1 x = true -> s_wr s x = true \/ x = IB i w /\ com s x = false) /\ s_ro s1 = s_ro s /\ s_res s1 = s_res s).
  { unfold s1, discard_block; destruct (com s (c_blk c)) eqn:E; repeat split; auto. intros x. cbn. unfold upd.
    destruct (N.eqb_spec x (c_blk c)) as [->|]; auto. }
  assert (D1 : forall x, dk s1 x = dk s x \/ x = IB i w /\ com s x = false).
  { intros x. unfold s1, discard_block. rewrite EB. destruct (com s (IB i w)) eqn:E; auto. cbn. unfold upd. destruct (N.eqb_spec x (IB i w)) as [->|]; auto. }
  assert (I1 : ImapInv g s1) by (eapply (ImapInv_dk g OK); [| | |apply K]; apply W1).
  assert (CC : cur s1 (IB i w) = negb false) by (rewrite C1; exact CU).
  pose proof (BitSet_ok g OK i w false s1 Vi Hw CC I1) as RB.
  set (s2 := bset g (IB i w) false s1) in *.
  assert (I2 : ImapInv g s2). { apply (bset_inv g); auto; [pose proof (FA_BC g OK); lia|discriminate]. }
  set (s3 := set_w (mset_freei (m_freei (s_w s2) + 1) (s_w s2)) s2).
  assert (FI2 : m_freei (s_w s2) = m_freei (s_w s)) by (unfold s2; rewrite (bset_freei g); destruct W1 as (-> & _); auto).
  assert (FB : m_freei (s_w s2) < ICNT g).
  { rewrite FI2, (k_freei K). pose proof (count_lt (fun k => negb (lv s k)) 2 (2 + ICNT g) i Vr) as X. cbv beta in X. rewrite LVi in X. specialize (X eq_refl). lia. }
  exists s3, (cset_buf 0 false 0 (c_i c) (c_br c) (c_dirty c) (c_dir c) c). split.
  { unfold RedInodeFree. cbn [fst snd]. rewrite (CM_mounted g OK _ _ M). cbn [negb]. fold i.
    unfold bind at 1, modify at 1. fold s1.
    rewrite (bind_ok _ _ _ _ _ (BitGet_ok g OK true i 0 s1 Vi ltac:(lia))).
    rewrite (bind_ok _ _ _ _ _ (BitGet_ok g OK true i 1 s1 Vi ltac:(lia))). cbn iota. rewrite !C1.
    assert (D : (w = 0 \/ w = 1)) by lia. destruct D as [-> | ->].
    - rewrite CU in SC |- *. cbn [andb] in SC. rewrite SC. rewrite (bind_ok _ _ _ _ _ RB). unfold bind, gets, modify.
      destruct (N.leb_spec (ICNT g) (m_freei (s_w s2))); [lia|]. reflexivity.
    - rewrite CU, andb_true_r in SC. rewrite SC, CU. cbn [negb]. rewrite (bind_ok _ _ _ _ _ RB). unfold bind, gets, modify.
      destruct (N.leb_spec (ICNT g) (m_freei (s_w s2))); [lia|]. reflexivity. }
  assert (CU3 : forall x, cur s3 x = if x =? IB i w then false else cur s x).
  { intros x. change (cur s3 x) with (cur s2 x). unfold s2. rewrite (bset_cur g). unfold upd. now rewrite C1. }
  assert (D3 : forall x, dk s3 x = dk s x \/ x = IB i w /\ com s x = false).
  { intros x. change (dk s3 x) with (dk s2 x). unfold s2. rewrite (bset_dk g), CM1. cbn [orb]. destruct (com s (IB i w)) eqn:E.
    - destruct (D1 x) as [|[-> X]]; auto.
    - unfold upd. destruct (N.eqb_spec x (IB i w)) as [->|]; auto. }
  assert (CU0 : forall v, v <= 1 -> cur s3 (IB i v) = false).
  { intros v Hv. rewrite CU3. destruct (N.eqb_spec (IB i v) (IB i w)) as [|X]; auto.
    assert (D : (w = 0 \/ w = 1) /\ (v = 0 \/ v = 1)) by lia. destruct D as [[-> | ->] [-> | ->]]; try congruence.
    - rewrite CU in SC. exact SC.
    - rewrite CU, andb_true_r in SC. exact SC. }
  assert (LV3 : lv s3 i = false) by (unfold FsInv.lv; rewrite !CU0 by lia; now rewrite Vi).
  assert (F : forall x, isslot g i x \/ cur s3 x = cur s x /\ dk s3 x = dk s x).
  { intros x. rewrite CU3. destruct (D3 x) as [E|[-> _]]; [|left; split; eauto]. destruct (N.eqb_spec x (IB i w)) as [->|]; [left; split; eauto|auto]. }
  assert (FR : frI g i s s3) by (intros x _; auto).
  assert (MF : m_free (s_w s3) = m_free (s_w s) /\ s_afree s3 = s_afree s).
  { unfold s3, s2. cbn. rewrite (bset_free g), (bset_afree g). destruct (N.leb_spec (FA g) (IB i w)); [lia|].
    destruct W1 as (-> & _ & -> & _). auto. }
  split; [|split; [exact LV3|split; [exact FR|split; [|exact MF]]]].
  - apply (Core_slots g OK C0 D0 R0 i io L pm s s3 K Vi); auto; try apply MF.
    + destruct I2 as [A B C]. constructor; auto.
    + unfold s3, s2. cbn. rewrite (bset_c g). apply W1.
    + intros x Hx. destruct (D3 x) as [E|[_ E]]; auto. congruence.
    + intros x Hx. assert (Y : s_wr s x = true \/ x = IB i w /\ com s x = false).
      { unfold s3, s2 in Hx. cbn in Hx. apply (bset_wr_in g) in Hx as [Hx|[-> E]].
        - destruct W1 as (_ & _ & _ & X & _). auto.
        - rewrite CM1 in E. auto. }
      destruct Y as [|[-> Y]]; auto. right. split; auto. pose proof (FA_BC g OK). lia.
    + unfold s3, s2. cbn. rewrite (bset_ro g). apply W1.
    + unfold s3, s2. cbn. rewrite (bset_res g). apply W1.
    + rewrite !CU0 by lia. reflexivity.
    + pose proof (count_change_in (fun k => negb (lv s3 k)) (fun k => negb (lv s k)) 2 (2 + ICNT g) i Vr) as X.
      cbv beta in X. rewrite LVi, LV3 in X. cbn [negb] in X. unfold s3 at 1. cbn. rewrite FI2, (k_freei K).
      assert (X' := X ltac:(intros k _ Hk; now rewrite (frI_lv g OK i s s3))). clear X. lia.
    + unfold s3, s2. cbn. apply (bset_br g).
  - intros b Hb. destruct (D3 b) as [|[-> _]]; auto. lia.
Qed.

(** * InodeDelete *)
Lemma vol_delete V c os s : VOL V ((true, c) :: os) s ->
  exists s' c', InodeDelete g (s, c) = (Ok tt, (s', c')) /\ VOL (upd V (c_ino c) None) os s'.
Proof.
  intros (pm & H). pose proof H as (I & HV & HQ & HN). pose proof (VP_WK g OK _ _ _ _ _ _ _ _ H) as [W B].
  pose proof W as (K & M & _). set (i := c_ino c) in *.
  (* state after the truncation *)
  assert (X : exists pm1 s1 c1, (if i_size (c_i c) =? 0 then ret tt else RedInodeDataTruncate g 0) (s, c) = (Ok tt, (s1, c1)) /\
      c_ino c1 = i /\ (exists io L, Core i io L pm1 Dnone s1) /\ CM g s1 c1 /\ (forall p, pm1 i p = 0) /\ frI g i s s1 /\
      (forall j q, j <> i -> pm1 j q = pm j q) /\
      (forall j io off, j <> i -> T s j = Some io -> off < i_size io -> fbyte g pm1 s1 j off = fbyte g pm s j off)).
  { destruct (N.eqb_spec (i_size (c_i c)) 0) as [E|E].
    - exists pm, s, c. split; [reflexivity|]. split; [reflexivity|]. split; [eauto|]. split; [exact M|]. split.
      + intros p. destruct (N.eq_dec (pm i p) 0) as [|Z]; auto. pose proof (f_lim (k_lim0 K) _ Z). lia.
      + split; [intros b _; auto|]. auto.
    - destruct (RedInodeDataTruncate_spec g OK C0 D0 R0 _ _ _ 0 W B ltac:(lia) ltac:(lia)) as [(S0 & _)|(pm1 & s1 & c1 & R & KTx & SZ & MB & CI & EFx & _)]; [lia|].
      destruct CI as (C1 & _). fold i in C1. exists pm1, s1, c1. split; [exact R|]. split; [exact C1|].
      destruct KTx as (K1 & M1 & _). rewrite C1 in K1. split; [eauto|]. split; [exact M1|]. split.
      + intros p. destruct (N.eq_dec (pm1 i p) 0) as [|Z]; auto. pose proof (f_lim (k_lim0 K1) _ Z). lia.
      + eapply (EF_frame g OK); [exact I|exact EFx]. }
  destruct X as (pm1 & s1 & c1 & R1 & EC & (io & L & K1) & M1 & P1 & F1 & FP & FB). rewrite <- EC in K1, P1.
  destruct (free_ino pm1 s1 c1 io L K1 M1 P1) as (s2 & c2 & R2 & I2 & LV2 & F2 & DK2 & _). rewrite EC in *.
  exists s2, c2. split.
  { unfold InodeDelete. unfold bind at 1, getc at 1. cbn [snd]. rewrite (CM_mounted g OK _ _ M). cbn [negb]. rewrite (bind_ok _ _ _ _ _ R1). exact R2. }
  pose proof (frI_trans g OK i s s1 s2 F1 F2) as F12. cbn in HN. inversion HN as [|? ? NI ND]; subst.
  exists pm1. split; [exact I2|]. split; [|split; auto].
  - intros j. unfold upd. destruct (N.eqb_spec j i) as [->|Hj].
    + unfold absV. destruct (T s2 i) eqn:E; cbn; auto. rewrite (T_lv g OK _ _ _ E) in LV2. discriminate.
    + eapply oeq_trans; [|apply HV]. apply (absV_frame g OK i); auto. intros x Hx off Ho. rewrite <- (FB j x off Hj Hx Ho).
      eapply (fbyte_high g OK); [exact K1| |exact DK2].
      destruct (Idle_in g OK _ _ _ _ _ _ _ I Hx) as [Kj _]. pose proof (k_lim0 Kj) as [_ X Y]; lia.
  - intros o Ho. eapply (CQ_frame g OK i); [exact F12|exact FP|eapply (Core_c g OK); [exact I|exact I2]| |apply HQ; now right].
    intros E. apply NI. unfold oino at 1. cbn [snd]. fold i. rewrite <- E. now apply in_map.
Qed.

(** * RedInodeLinkDec *)
Lemma vol_linkdec V c os s : VOL V ((true, c) :: os) s ->
  exists a s' c', V (c_ino c) = Some a /\ RedInodeLinkDec g (s, c) = (Ok tt, (s', c')) /\
    if 1 <? a_nlink a then VOL (upd V (c_ino c) (Some (anlink a (a_nlink a - 1)))) ((true, c') :: os) s'
    else VOL (upd V (c_ino c) None) os s'.
Proof.
  intros H. destruct (VOL_V g OK _ _ _ _ _ _ _ _ H) as (a & Va & E1 & E2 & E3 & E4 & E5).
  assert (M : CINODE_IS_MOUNTED g c = true).
  { destruct H as (pm & _ & _ & HQ & _). destruct (HQ _ (or_introl eq_refl)) as (M & _). eapply (CM_mounted g OK); exact M. }
  unfold RedInodeLinkDec. unfold bind at 1, getc at 1. cbn [snd]. rewrite M. cbn [negb]. rewrite <- E3.
  destruct (1 <? a_nlink a) eqn:EL.
  - destruct (vol_branch g OK _ _ _ _ _ _ _ _ H) as (s1 & c1 & R1 & VO1 & D1 & I1 & CI1 & _).
    destruct (vol_iset g OK C0 D0 R0 V true c1 os s1 (fun i => iset_nlink (i_nlink i - 1) i) (fun a => anlink a (a_nlink a - 1)) VO1 D1)
      as (a' & s2 & c2 & Va' & R2 & _ & _ & VO2 & _); try reflexivity.
    + intros pm s0 j io. repeat split.
    + intros x y (X1 & X2 & X3 & X4 & X5). repeat split; cbn; auto. now rewrite X3.
    + rewrite I1 in *. rewrite Va in Va'. injection Va' as <-. exists a, s2, c2. split; [exact Va|]. rewrite EL. split; [|exact VO2].
      rewrite (bind_ok _ _ _ _ _ R1). exact R2.
  - destruct (vol_delete V c os s H) as (s' & c' & R & VO). exists a, s', c'. rewrite EL. auto.
Qed.
End Vol.
