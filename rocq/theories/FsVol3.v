(** Mounting, branching, creating and deleting inodes on the volume of files. *)
From Verif Require Import Base Count FsState FsImap FsInode FsData FsTree FsImapProof FsWp FsInv FsStep FsSeek FsBranch FsRead FsWrite FsWrite2 FsTrunc FsTrunc2 FsTrunc3 FsTrunc4 FsTrunc5 FsVol FsVol2.
Ltac Zify.zify_post_hook ::= idtac.

Section Vol.
Variable g : cfg.
Hypothesis OK : cfg_ok g.
Set Default Proof Using "OK".
Notation LM := (INODE_SIZE_MAX g).
Notation T := (T g).
Notation lv := (lv g).
Notation IB := (InodeBlock g).

Lemma slot_BC i w : INODE_IS_VALID g i = true -> w <= 1 -> ITAB g <= IB i w < BC g.
Proof. intros V Hw. pose proof (slot_rng g OK i w V Hw). pose proof (FA_BC g OK). lia. Qed.
Lemma BitGet_ok wk i w s : INODE_IS_VALID g i = true -> w <= 1 ->
  RedInodeBitGet g wk i w s = (Ok (if wk then cur s (IB i w) else com s (IB i w)), s).
Proof.
  intros V Hw. unfold RedInodeBitGet. rewrite V. cbn [negb orb]. destruct (N.ltb_spec 1 w); [lia|].
  apply (RedImapBlockGet_ok g). now apply slot_BC.
Qed.
Lemma BitSet_ok i w al s : INODE_IS_VALID g i = true -> w <= 1 -> cur s (IB i w) = negb al -> ImapInv g s ->
  InodeBitSet g i w al s = (Ok tt, bset g (IB i w) al s).
Proof.
  intros V Hw HC I. unfold InodeBitSet. rewrite V. cbn [negb orb]. destruct (N.ltb_spec 1 w); [lia|].
  apply (RedImapBlockSet_ok g); auto; [now apply slot_BC|]. pose proof (slot_rng g OK i w V Hw). lia.
Qed.
Lemma CurCopy_ok i s io : T s i = Some io ->
  exists w, w <= 1 /\ InodeGetCurrentCopy g i s = (Ok w, s) /\ cur s (IB i w) = true /\ dk s (IB i w) = BInode io.
Proof.
  unfold FsInv.T, InodeGetCurrentCopy. destruct (INODE_IS_VALID g i) eqn:V; [|discriminate].
  destruct (cur s (IB i 0)) eqn:E0.
  - intros H. exists 0. split; [lia|]. rewrite (bind_ok _ _ _ _ _ (BitGet_ok true i 0 s V ltac:(lia))), E0. cbn. split; auto.
    destruct (dk s (IB i 0)); try discriminate. injection H as ->. auto.
  - destruct (cur s (IB i 1)) eqn:E1; [|discriminate]. intros H. exists 1. split; [lia|].
    rewrite (bind_ok _ _ _ _ _ (BitGet_ok true i 0 s V ltac:(lia))), E0.
    rewrite (bind_ok _ _ _ _ _ (BitGet_ok true i 1 s V ltac:(lia))), E1. split; auto.
    destruct (dk s (IB i 1)); try discriminate. injection H as ->. auto.
Qed.
Lemma CurCopy_none i s : INODE_IS_VALID g i = true -> lv s i = false -> InodeGetCurrentCopy g i s = (Err EBADF, s).
Proof.
  intros V H. unfold FsInv.lv in H. rewrite V in H. cbn in H. apply orb_false_iff in H as [A B]. unfold InodeGetCurrentCopy.
  rewrite (bind_ok _ _ _ _ _ (BitGet_ok true i 0 s V ltac:(lia))), A.
  rewrite (bind_ok _ _ _ _ _ (BitGet_ok true i 1 s V ltac:(lia))), B. reflexivity.
Qed.
Lemma WrCopy_ok i s : INODE_IS_VALID g i = true -> com s (IB i 0) && com s (IB i 1) = false ->
  exists w, w <= 1 /\ InodeGetWriteableCopy g i s = (Ok w, s) /\ com s (IB i w) = false /\ (w = 1 -> com s (IB i 0) = true).
Proof.
  intros V H. unfold InodeGetWriteableCopy. rewrite (bind_ok _ _ _ _ _ (BitGet_ok false i 0 s V ltac:(lia))).
  destruct (com s (IB i 0)) eqn:E0; cbn [negb].
  - rewrite (bind_ok _ _ _ _ _ (BitGet_ok false i 1 s V ltac:(lia))). cbn in H. rewrite H. cbn. exists 1. repeat split; auto; lia.
  - exists 0. repeat split; auto; lia.
Qed.
Lemma IsBranched_ok i s : INODE_IS_VALID g i = true ->
  InodeIsBranched g i s = (Ok (cur s (IB i 0) && negb (com s (IB i 0)) || cur s (IB i 1) && negb (com s (IB i 1))), s).
Proof.
  intros V. unfold InodeIsBranched. rewrite V. cbn [negb].
  rewrite (bind_ok _ _ _ _ _ (RedImapBlockState_ok g _ s (slot_BC i 0 V ltac:(lia)))).
  destruct (cur s (IB i 0)), (com s (IB i 0)); cbn [andb negb orb]; try reflexivity;
  rewrite (bind_ok _ _ _ _ _ (RedImapBlockState_ok g _ s (slot_BC i 1 V ltac:(lia))));
  destruct (cur s (IB i 1)), (com s (IB i 1)); reflexivity.
Qed.
Lemma IsFree_ok i s : INODE_IS_VALID g i = true -> RedInodeIsFree g i s = (Ok (negb (lv s i)), s).
Proof.
  intros V. unfold RedInodeIsFree, FsInv.lv. rewrite V. cbn [andb].
  rewrite (bind_ok _ _ _ _ _ (BitGet_ok true i 0 s V ltac:(lia))). destruct (cur s (IB i 0)); auto.
  rewrite (bind_ok _ _ _ _ _ (BitGet_ok true i 1 s V ltac:(lia))). reflexivity.
Qed.
Lemma find_free_inode_spec s : forall n i, INODE_FIRST_VALID <= i -> i + N.of_nat n <= INODE_FIRST_VALID + ICNT g ->
  (exists k, i <= k < i + N.of_nat n /\ lv s k = false /\ find_free_inode g n i s = (Ok k, s)) \/
  (forall k, i <= k < i + N.of_nat n -> lv s k = true).
Proof.
  induction n; intros i Hi Hn; [right; lia|].
  assert (V : INODE_IS_VALID g i = true) by (apply (valid_iff g OK); unfold INODE_FIRST_VALID in *; lia).
  cbn [find_free_inode]. rewrite (bind_ok _ _ _ _ _ (IsFree_ok i s V)). destruct (lv s i) eqn:E; cbn [negb].
  - destruct (IHn (i + 1)) as [(k & A & B & C)|A]; try lia.
    + left. exists k. split; [lia|auto].
    + right. intros k Hk. destruct (N.eq_dec k i) as [->|]; auto. apply A. lia.
  - left. exists i. split; [lia|auto].
Qed.

Variable C0 : mroot.
Variable D0 : N -> blk.
Variable R0 : bool.
Notation Core := (Core g C0 D0 R0).
Notation Idle := (Idle g C0 D0 R0).
Notation KT := (KT g C0 D0 R0).
Notation WK := (WK g C0 D0 R0).
Notation WS := (WS g C0 D0 R0).
Notation VP := (VP g C0 D0 R0).
Notation VOL := (VOL g C0 D0 R0).

(** An operation on a mounted inode that changes no file. *)
Lemma VP_keep pm V b c os s pm' s' c' b' :
  VP pm V ((b, c) :: os) s -> KT pm' s' c' -> c_ino c' = c_ino c -> T s' (c_ino c) = Some (c_i c') -> frI g (c_ino c) s s' ->
  (forall j q, j <> c_ino c -> pm' j q = pm j q) -> meta_same (c_i c) (c_i c') ->
  (forall j io off, T s j = Some io -> off < i_size io -> fbyte g pm' s' j off = fbyte g pm s j off) ->
  (b' = true -> CWe g pm' c') ->
  VP pm' V ((b', c') :: os) s'.
Proof.
  intros H KTx C1 HT F P (M1 & M2 & M3 & M4) BY WE. destruct (VP_a g OK _ _ _ _ _ _ _ _ _ H) as (a & Va & E1 & E2 & E3 & E4 & E5). cbn in *.
  pose proof H as (_ & _ & HQ & _). destruct (HQ _ (or_introl eq_refl)) as (_ & HT0 & _). cbn [snd] in HT0.
  destruct (VP_upd g OK C0 D0 R0 pm V b c os s pm' s' c' b' a H KTx C1 HT F P) as (I & V' & Q & ND).
  { intros j io off Hj. apply BY. } { exact WE. }
  { repeat split; cbn; try congruence. intros x. rewrite <- E5. unfold vb. rewrite M1. destruct (N.ltb_spec x (i_size (c_i c))); auto. eapply BY; eauto. }
  split; [exact I|]. split; [|split; auto]. intros j. eapply oeq_trans; [apply V'|]. unfold upd.
  destruct (N.eqb_spec j (c_ino c)) as [->|]; [rewrite Va|]; apply oeq_refl.
Qed.

(** bytes of files only depend on blocks at and above FA *)
Lemma fbyte_high pm s s' io0 i0 L j off : Core i0 io0 L pm Dnone s -> off < LM ->
  (forall b, FA g <= b -> dk s' b = dk s b) -> fbyte g pm s' j off = fbyte g pm s j off.
Proof.
  intros K Ho HD. unfold fbyte, blkc. destruct (N.eqb_spec (pm j (pT g (off / BS g))) 0) as [|Z]; auto.
  destruct (Core_blk OK K Z) as (R & _). now rewrite HD by lia.
Qed.

Lemma count_lv_same i s s' : frI g i s s' -> lv s' i = lv s i ->
  count (fun k => negb (lv s' k)) 2 (2 + ICNT g) = count (fun k => negb (lv s k)) 2 (2 + ICNT g).
Proof using OK. clear C0 D0 R0. intros F E. apply count_ext. intros k _. destruct (N.eq_dec k i) as [->|]; [now rewrite E|]. now rewrite (frI_lv g OK i s s'). Qed.

Lemma slot_dec i b : INODE_IS_VALID g i = true -> isslot g i b \/ (b <> IB i 0 /\ b <> IB i 1).
Proof using OK.
  clear C0 D0 R0. intros V. destruct (N.eq_dec b (IB i 0)); [left; split; auto; exists 0; split; auto; lia|].
  destruct (N.eq_dec b (IB i 1)); [left; split; auto; exists 1; split; auto; lia|]. auto.
Qed.

(** * RedInodeBranch *)
Lemma vol_branch V b c os s : VOL V ((b, c) :: os) s ->
  exists s' c', RedInodeBranch g (s, c) = (Ok tt, (s', c')) /\ VOL V ((b, c') :: os) s' /\ c_dirty c' = true /\ c_ino c' = c_ino c /\
    c_i c' = c_i c /\ c_dir c' = c_dir c /\ m_free (s_w s') = m_free (s_w s) /\ s_afree s' = s_afree s.
Proof.
  intros (pm & H). pose proof H as (I & HV & HQ & HN).
  destruct (HQ _ (or_introl eq_refl)) as (M & HT & W0 & WE). cbn [fst snd] in *.
  destruct (Idle_in g OK _ _ _ _ _ _ _ I HT) as [K NB]. set (i := c_ino c) in *. pose proof (cm_val _ _ _ M) as V0. fold i in V0.
  assert (LI : i_size (c_i c) <= LM) by (pose proof (k_lim0 K) as [_ X Y]; lia).
  destruct (cm_slot _ _ _ M) as (_ & w0 & Hw0 & EB). fold i in EB.
  destruct (k_slot K i V0) as [SC SM].
  unfold RedInodeBranch. cbn [fst snd]. rewrite (CM_mounted g OK _ _ M). cbn [negb].
  destruct (c_br c) eqn:BR; cbn [negb].
  - (* already branched *)
    pose proof (cm_br _ _ _ M) as CB. rewrite BR in CB. symmetry in CB. apply negb_true_iff in CB.
    assert (DB : dk s (c_blk c) = BInode (c_i c)).
    { destruct (CurCopy_ok i s _ HT) as (w & Hw & _ & X1 & X2). rewrite EB. assert (w = w0) as <-; auto.
      pose proof (cm_cur _ _ _ M) as Y. rewrite EB in Y. assert (D : (w = 0 \/ w = 1) /\ (w0 = 0 \/ w0 = 1)) by lia.
      destruct D as [[-> | ->] [-> | ->]]; auto; rewrite X1, Y in SC; discriminate. }
    set (c1 := cset_buf (c_ino c) true (c_blk c) (c_i c) true true (c_dir c) c).
    assert (M1 : CM g s c1). { destruct M as [A1 A2 A3 A4 A5 A6]. constructor; auto. unfold c1. cbn. now rewrite CB. }
    assert (KS1 : KS g C0 D0 R0 pm Dnone s c1). { split; [|split; auto]. eapply (Core_L OK); [| |exact K]; lia. }
    assert (W1 : CW0 g pm c1). { destruct W0 as [A1 A2 A3 A4]. constructor; auto. }
    destruct (iset_KT g OK C0 D0 R0 pm s c1 (fun x => x) KS1 W1 ltac:(auto) eq_refl LI) as (KTx & CI & EFx).
    { apply (k_lim0 K). }
    unfold iset_st in KTx, EFx. cbn [c_dirty c1 cset_buf] in KTx, EFx. 
    exists (dk_write (c_blk c) (BInode (c_i c)) s), c1. split; [reflexivity|]. split; [|repeat split].
    exists pm. destruct (EF_frame g OK _ _ _ _ _ _ _ _ _ I (EFx anyb)) as (G1 & G2 & G3).
    eapply VP_keep; [exact H|exact KTx|reflexivity| |exact G1|exact G2|apply (meta_refl g OK)| |].
    + apply (KT_T g OK _ _ _ _ _ _ KTx). reflexivity.
    + intros j io off Hj Ho. eapply (EF_fbyte g OK); [apply (EFx (fun _ => False))| |right; tauto].
      destruct (Idle_in g OK _ _ _ _ _ _ _ I Hj) as [Kj _]. pose proof (k_lim0 Kj) as [_ X Y]; lia.
    + intros Hb. exact (WE Hb).
  - (* copy to the other slot *)
    pose proof (cm_br _ _ _ M) as CB. rewrite BR in CB. symmetry in CB. apply negb_false_iff in CB.
    pose proof (cm_cur _ _ _ M) as CU. rewrite EB in CB, CU.
    destruct (WrCopy_ok i s V0 SM) as (w & Hw & RW & CW_ & W1).
    assert (EW : w = 1 - w0 /\ w0 = 1 - w).
    { assert (D : (w = 0 \/ w = 1) /\ (w0 = 0 \/ w0 = 1)) by lia. destruct D as [[-> | ->] [-> | ->]]; try (split; reflexivity); congruence. }
    destruct EW as [EW EW0].
    assert (NE : IB i w <> IB i w0). { intros X. apply (slot_inj g OK) in X; auto. lia. }
    assert (CN : cur s (IB i w) = false).
    { assert (D : (w = 0 \/ w = 1)) by lia. destruct D as [-> | ->]; cbn in EW0; subst w0.
      - change (1 - 0) with 1 in CU. rewrite CU, andb_true_r in SC. auto.
      - change (1 - 1) with 0 in CU. rewrite CU in SC. auto. }
    set (s1 := dk_write (IB i w) (BInode (c_i c)) s).
    assert (I1 : ImapInv g s1) by (eapply (ImapInv_dk g OK); [| | |apply K]; reflexivity).
    assert (C1 : cur s1 (IB i w0) = negb false) by exact CU.
    pose proof (BitSet_ok i w0 false s1 V0 Hw0 C1 I1) as RB1.
    assert (I2 : ImapInv g (bset g (IB i w0) false s1)).
    { apply (bset_inv g); auto; [now apply slot_BC|discriminate]. }
    set (s2 := bset g (IB i w0) false s1) in *.
    assert (C2 : cur s2 (IB i w) = negb true). { unfold s2. rewrite (bset_cur g), upd_other by auto. exact CN. }
    pose proof (BitSet_ok i w true s2 V0 Hw C2 I2) as RB2.
    set (s3 := bset g (IB i w) true s2) in *.
    pose proof (slot_rng g OK i w V0 Hw) as RGw. pose proof (slot_rng g OK i w0 V0 Hw0) as RGw0.
    assert (I3 : ImapInv g s3). { apply (bset_inv g); auto; [now apply slot_BC|lia]. }
    set (c1 := cset_buf i true (IB i w) (c_i c) true true (c_dir c) c).
    assert (RUN : (w <- lift (critical_assert (InodeGetWriteableCopy g (c_ino c))) ;;
     (let nb := IB (c_ino c) w in
      (fun sc => (Ok tt, (dk_write nb (BInode (c_i (snd sc))) (fst sc),
                  cset_buf (c_ino c) true nb (c_i (snd sc)) true true (c_dir (snd sc)) (snd sc)))) ;;;
      lift (critical_assert (InodeBitSet g (c_ino c) (1 - w) false)) ;;;
      lift (critical_assert (InodeBitSet g (c_ino c) w true)))) (s, c) = (Ok tt, (s3, c1))).
    { fold i. unfold bind at 1, lift at 1, critical_assert at 1. cbn [fst snd]. rewrite RW. cbv zeta.
      unfold bind at 1. cbn [fst snd]. fold s1. unfold bind at 1, lift at 1, critical_assert at 1. cbn [fst snd]. rewrite <- EW0, RB1.
      unfold lift at 1, critical_assert at 1. cbn [fst snd]. rewrite RB2. reflexivity. }
    exists s3, c1. split; [exact RUN|].
    (* facts about s3 *)
    assert (CU3 : forall x, cur s3 x = if x =? IB i w then true else if x =? IB i w0 then false else cur s x).
    { intros x. unfold s3, s2. rewrite !(bset_cur g). unfold upd. reflexivity. }
    assert (CO3 : forall x, com s3 x = com s x). { intros x. unfold s3, s2. rewrite !(bset_com g). reflexivity. }
    assert (DK3 : forall x, dk s3 x = if x =? IB i w then BInode (c_i c) else dk s x).
    { intros x. unfold s3, s2. rewrite (bset_dk g). cbn [orb]. rewrite (bset_dk g).
      replace (com s1 (IB i w0)) with true by (symmetry; exact CB). reflexivity. }
    assert (T3 : T s3 i = Some (c_i c)).
    { unfold FsInv.T. rewrite V0, !CU3, !DK3. assert (D : (w = 0 \/ w = 1)) by lia. destruct D as [-> | ->]; subst w0.
      - now rewrite N.eqb_refl.
      - change (1 - 1) with 0 in *. rewrite N.eqb_refl. destruct (N.eqb_spec (IB i 0) (IB i 1)); [congruence|].
        rewrite N.eqb_refl. destruct (N.eqb_spec (IB i 1) (IB i 1)); congruence. }
    assert (F3 : forall x, isslot g i x \/ cur s3 x = cur s x /\ dk s3 x = dk s x).
    { intros x. destruct (slot_dec i x V0) as [|[X Y]]; auto. right. rewrite CU3, DK3.
      assert (D : (w = 0 \/ w = 1)) by lia. destruct D as [-> | ->]; subst w0; change (1 - 1) with 0; change (1 - 0) with 1;
      destruct (N.eqb_spec x (IB i 0)), (N.eqb_spec x (IB i 1)); auto; congruence. }
    assert (F3' : frI g i s s3) by (intros x _; auto).
    assert (LV3 : lv s3 i = lv s i) by (rewrite (T_lv g OK _ _ _ T3), (T_lv g OK _ _ _ HT); reflexivity).
    assert (MF : m_free (s_w s3) = m_free (s_w s) /\ s_afree s3 = s_afree s).
    { unfold s3, s2. rewrite !(bset_free g), !(bset_afree g). destruct (N.leb_spec (FA g) (IB i w)); [lia|].
      destruct (N.leb_spec (FA g) (IB i w0)); [lia|]. auto. }
    assert (I' : Idle pm s3).
    { apply (Core_slots g OK C0 D0 R0 i (c_i c) (i_size (c_i c)) pm s s3 K V0); auto; try apply MF.
      - unfold s3, s2. now rewrite !(bset_c g).
      - intros x Hx. rewrite DK3. destruct (N.eqb_spec x (IB i w)) as [->|]; auto. congruence.
      - intros x Hx. unfold s3, s2 in Hx. apply (bset_wr_in g) in Hx as [Hx|[-> E]].
        2:{ right. split; [|now apply slot_BC]. rewrite (bset_com g) in E. exact E. }
        apply (bset_wr_in g) in Hx as [Hx|[-> E]].
        2:{ right. split; [exact E|]. apply slot_BC; auto; lia. }
        revert Hx. cbn. unfold upd. destruct (N.eqb_spec x (IB i w)) as [->|]; auto.
        intros _. right. split; [exact CW_|now apply slot_BC].
      - unfold s3, s2. now rewrite !(bset_ro g).
      - unfold s3, s2. now rewrite !(bset_res g).
      - rewrite !CU3. assert (D : (w = 0 \/ w = 1)) by lia. destruct D as [-> | ->]; subst w0; change (1 - 1) with 0 in *; change (1 - 0) with 1 in *;
        destruct (N.eqb_spec (IB i 0) (IB i 1)), (N.eqb_spec (IB i 1) (IB i 0)); rewrite ?N.eqb_refl; try congruence; auto.
      - rewrite (count_lv_same i s s3) by auto. rewrite <- (k_freei K). unfold s3, s2. now rewrite !(bset_freei g).
      - left. exists (c_i c). split; [exact T3|]. split; [|split; [apply (k_lim0 K)|exact NB]].
        intros e He. eapply ino_sync; [apply (k_rep K)|auto|intros []].
      - unfold s3. apply (bset_br g). }
    destruct (Idle_in g OK _ _ _ _ _ _ _ I' T3) as [K3 _].
    assert (M1 : CM g s3 c1).
    { constructor; auto.
      - split; eauto.
      - cbn. rewrite CU3, N.eqb_refl. auto.
      - cbn. rewrite CO3, CW_. auto.
      - cbn. intros _. rewrite CO3, DK3, N.eqb_refl. auto. }
    assert (W1' : CW0 g pm c1). { destruct W0 as [A1 A2 A3 A4]. constructor; auto. }
    split; [|repeat split; apply MF]. exists pm.
    eapply VP_keep; [exact H| |reflexivity|exact T3|exact F3'|auto|apply (meta_refl g OK)| |].
    + split; [exact K3|]. split; [exact M1|]. split; auto.
    + intros j io off Hj Ho. eapply fbyte_high; [exact K| |].
      * destruct (Idle_in g OK _ _ _ _ _ _ _ I Hj) as [Kj _]. pose proof (k_lim0 Kj) as [_ X Y]; lia.
      * intros x Hx. destruct (F3 x) as [(_ & v & Hv & E)|[_ X]]; auto. pose proof (slot_rng g OK i v V0 Hv). lia.
    + intros Hb. exact (WE Hb).
Qed.
End Vol.
