(** Proofs about the volume level: the invariant relating device, RAM state and the working and
    committed file systems, preserved by every call, transaction point, rollback and power loss. *)
From Verif Require Import Base Count FsState FsImap FsInode FsData FsTree FsImapProof FsInv FsBranch FsRead FsWrite FsVol FsDir FsDirP FsCore FsWr FsRo FsSpec FsSpecP FsCoreP FsCoreP2 FsMach FsVolume.
Ltac Zify.zify_post_hook ::= idtac.

Definition fresh (br : bool) (m : mroot) (D : N -> blk) : st := mkSt D (fun _ => false) m m 0 br false false.

Section Re.
Variable g : cfg.
Hypothesis OK : cfg_ok g.
Set Default Proof Using "OK".

Lemma T_re s s' i : (forall b, cur s' b = cur s b) -> (forall b, cur s b = true -> dk s' b = dk s b) -> T g s' i = T g s i.
Proof.
  intros Hc Hd. unfold T. rewrite !Hc. destruct (INODE_IS_VALID g i); auto.
  destruct (cur s (InodeBlock g i 0)) eqn:E0; [rewrite Hd; auto|]. destruct (cur s (InodeBlock g i 1)) eqn:E1; [rewrite Hd; auto|]. reflexivity.
Qed.
Lemma lv_re s s' i : (forall b, cur s' b = cur s b) -> lv g s' i = lv g s i.
Proof. intros Hc. unfold lv. now rewrite !Hc. Qed.

(** Same allocation bits, same contents of the allocated blocks. *)
Lemma Idle_re C0 D0 pm s C1 D1 s' : Idle g C0 D0 false pm s ->
  (forall b, cur s' b = cur s b) -> (forall b, cur s b = true -> dk s' b = dk s b) ->
  m_freei (s_w s') = m_freei (s_w s) -> ImapInv g s' ->
  s_c s' = C1 -> (forall b, com s' b = true -> dk s' b = D1 b) ->
  (forall b, s_wr s' b = true -> com s' b = false /\ ITAB g <= b < BC g) ->
  s_ro s' = false -> s_res s' = false -> N.min (RESV g) (NALLOC g) <= m_free (s_w s') + s_afree s' ->
  (forall i, INODE_IS_VALID g i = true -> com s' (InodeBlock g i 0) && com s' (InodeBlock g i 1) = false) ->
  (s_br s' = false -> s_w s' = s_c s' /\ (forall b, dk s' b = D1 b) /\ (forall b, s_wr s' b = false)) ->
  Idle g C1 D1 false pm s'.
Proof.
  intros K Hc Hd Hf HI HC HF HW HR HS HV HSl HB.
  assert (LT : forall i, T g s' i = T g s i) by (intros; apply T_re; auto).
  assert (LL : forall i, lv g s' i = lv g s i) by (intros; apply lv_re; auto).
  assert (LW : forall j, view g s' 0 inode0 j = view g s 0 inode0 j) by (intros; unfold view; now rewrite LT).
  constructor; auto.
  - intros i Vi. rewrite !Hc. split; auto. apply (k_slot K i Vi).
  - intros j Hj Hn. rewrite LL in Hj. rewrite LT. apply (k_ino K j Hj Hn).
  - rewrite Hf, (k_freei K). apply count_ext. intros; now rewrite LL.
  - destruct (k_tree K) as [T1 T2 T3 T4]. constructor; auto.
    + intros i p Hp. rewrite LL. auto.
    + intros i p Hp. rewrite Hc. auto.
    + intros b Hb. rewrite Hc. auto.
  - destruct (k_rep K) as [R1 R2 R3]. constructor; auto.
    + intros j io e Hv. rewrite LW in Hv. auto.
    + intros j p Hp Hh. destruct (t_rng (k_tree K) j p Hp) as [_ Cu]. rewrite Hd by auto. auto.
  - apply (k_lim0 K).
  - intros j x Hj Hn. rewrite LT in Hj. apply (k_fit K j x Hj Hn).
Qed.

Lemma absV_re C0 D0 pm s s' : Idle g C0 D0 false pm s ->
  (forall b, cur s' b = cur s b) -> (forall b, cur s b = true -> dk s' b = dk s b) -> veq (absV g pm s') (absV g pm s).
Proof.
  intros K Hc Hd j. unfold absV. rewrite (T_re s s' j Hc Hd). destruct (T g s j) as [io|]; [|exact Logic.I]. cbn.
  unfold absI, feq. cbn. repeat split; auto. intros x. unfold vb. destruct (x <? i_size io); auto.
  unfold fbyte, blkc. destruct (N.eqb_spec (pm j (pT g (x / BS g))) 0) as [|Hp]; auto.
  destruct (t_rng (k_tree K) j _ Hp) as [_ Cu]. now rewrite Hd.
Qed.

Lemma FSV_re C0 D0 F s C1 D1 s' : FSV g C0 D0 F s ->
  (forall b, cur s' b = cur s b) -> (forall b, cur s b = true -> dk s' b = dk s b) ->
  m_freei (s_w s') = m_freei (s_w s) -> ImapInv g s' ->
  s_c s' = C1 -> (forall b, com s' b = true -> dk s' b = D1 b) ->
  (forall b, s_wr s' b = true -> com s' b = false /\ ITAB g <= b < BC g) ->
  s_ro s' = false -> s_res s' = false -> N.min (RESV g) (NALLOC g) <= m_free (s_w s') + s_afree s' ->
  (forall i, INODE_IS_VALID g i = true -> com s' (InodeBlock g i 0) && com s' (InodeBlock g i 1) = false) ->
  (s_br s' = false -> s_w s' = s_c s' /\ (forall b, dk s' b = D1 b) /\ (forall b, s_wr s' b = false)) ->
  FSV g C1 D1 F s'.
Proof.
  intros (V & (pm & K & EV & _ & _) & HR). intros. exists V. split; auto. exists pm. split; [|split; [|split]].
  - eapply Idle_re; eauto.
  - eapply veq_trans; [|exact EV]. eapply absV_re; eauto.
  - intros o [].
  - constructor.
Qed.
Lemma FSV_Idle C0 D0 F s : FSV g C0 D0 F s -> exists pm, Idle g C0 D0 false pm s.
Proof. intros (V & (pm & K & _) & _). eauto. Qed.

(** The committed state does not depend on the contents of free blocks. *)
Lemma FSV_fresh C0 D0 F br br' D1 : FSV g C0 D0 F (fresh br C0 D0) -> (forall b, m_bits C0 b = true -> D1 b = D0 b) ->
  FSV g C0 D1 F (fresh br' C0 D1).
Proof.
  intros H HD. destruct (FSV_Idle _ _ _ _ H) as [pm K]. eapply FSV_re; [exact H| | | | | | | | | | | | ]; try reflexivity; auto; try discriminate.
  - destruct (k_imap K) as [I1 I2 I3]. constructor; auto.
  - apply (k_rsv K).
  - intros i Vi. apply (k_slot K i Vi).
Qed.

(** A volume without uncommitted changes shows the committed state. *)
Lemma cnt_afree0 s : (forall b, cur s b = com s b) -> count (afree_blk s) (FA g) (BC g) = 0.
Proof. intros H. apply count_0. intros; unfold afree_blk; rewrite H; now destruct (com s x). Qed.
Lemma FSV_clean C0 D0 F s : FSV g C0 D0 F s -> s_br s = false -> FSV g C0 D0 F (fresh false C0 D0).
Proof.
  intros H B. destruct (FSV_Idle _ _ _ _ H) as [pm K]. destruct (k_br K B) as (E1 & E2 & E3). pose proof (k_c K) as EC.
  assert (CU : forall b, cur s b = m_bits C0 b) by (intros; unfold cur; congruence).
  assert (CO : forall b, com s b = m_bits C0 b) by (intros; unfold com; congruence).
  assert (AF : s_afree s = 0). { rewrite (im_afree g s (k_imap K)). apply cnt_afree0. congruence. }
  assert (WC : s_w s = C0) by congruence.
  eapply FSV_re; [exact H| | | | | | | | | | | | ]; try reflexivity; auto; try discriminate.
  - intros b. now rewrite CU.
  - cbn. now rewrite WC.
  - destruct (k_imap K) as [I1 I2 I3]. rewrite WC in *. constructor; auto.
    + cbn. rewrite I1. apply count_ext. intros. unfold free_blk, cur, com. cbn. rewrite WC, EC. reflexivity.
    + cbn. symmetry. apply cnt_afree0. reflexivity.
  - pose proof (k_rsv K) as R. rewrite AF, WC in R. exact R.
  - intros i Vi. pose proof (proj2 (k_slot K i Vi)) as X. rewrite !CO in X. exact X.
Qed.
Lemma FSV_clean' C0 D0 F W s : FSV g C0 D0 W s -> s_br s = false -> FSV g C0 D0 F (fresh false C0 D0) -> FSV g C0 D0 F s.
Proof.
  intros H B HF. destruct (FSV_Idle _ _ _ _ H) as [pm K]. destruct (k_br K B) as (E1 & E2 & E3). pose proof (k_c K) as EC.
  assert (WC : s_w s = C0) by congruence.
  eapply FSV_re; [exact HF| | | | | | | | | | | | ].
  - intros. unfold cur. now rewrite WC.
  - intros. cbn. auto.
  - now rewrite WC.
  - apply (k_imap K).
  - exact EC.
  - intros. auto.
  - apply (k_wr K).
  - apply (k_ro K).
  - apply (k_res K).
  - apply (k_rsv K).
  - intros i Vi. apply (k_slot K i Vi).
  - auto.
Qed.

(** The state after a transaction point. *)
Lemma FSV_commit C0 D0 F s D1 : FSV g C0 D0 F s -> (forall b, cur s b = true -> D1 b = dk s b) -> FSV g (newMR s) D1 F (fresh false (newMR s) D1).
Proof.
  intros H HD. destruct (FSV_Idle _ _ _ _ H) as [pm K].
  eapply FSV_re; [exact H| | | | | | | | | | | | ]; try reflexivity; auto; try discriminate.
  - constructor; cbn.
    + rewrite (free_total g OK s (k_imap K)). apply count_ext. intros. unfold free_blk, cur, com. cbn. now destruct (m_bits (s_w s) x).
    + symmetry. apply cnt_afree0. reflexivity.
    + apply (im_next g s (k_imap K)).
  - cbn. rewrite N.add_0_r. apply (k_rsv K).
  - intros i Vi. apply (k_slot K i Vi).
Qed.
End Re.

Section V.
(** What is known of the file system as a tree: [WF] with the POSIX-like API, see FsVolumeP.v; all inodes are
    files with the FSE API, see FseReach.v. *)
Variable good : fs -> Prop.
Variable g : cfg.
Hypothesis OK : cfg_ok g.
Variable atom : bool.
Set Default Proof Using "OK".
Notation FSV := (FSV g).
Notation lose := (lose atom).

(** * Metaroot blocks *)
Definition older (q : N) (x : mslot) : Prop := match x with MBad sec => atom = true -> sec = true | MOk q' _ => q' < q end.
Definition SLOTS (d : dev) (i : bool) (q : N) (m : mroot) : Prop :=
  d_mr d i = MOk q m /\ d_mrd d i = MOk q m /\ older q (d_mr d (negb i)) /\ older q (d_mrd d (negb i)).
Lemma older_sec q x : older q x -> atom = true -> sec_ok x = true.
Proof using. destruct x; cbn; auto. Qed.
Lemma choose_older mr i q m : mr i = MOk q m -> older q (mr (negb i)) -> choose atom mr = Ok (i, q, m).
Proof using.
  intros H O. unfold choose. destruct i; cbn [negb] in O; rewrite H.
  - destruct (mr false) as [sec|q' m']; cbn in O.
    + destruct atom; cbn [andb]; [rewrite O by auto|]; reflexivity.
    + destruct (N.ltb_spec q' q); [reflexivity|lia].
  - destruct (mr true) as [sec|q' m']; cbn in O.
    + destruct atom; cbn [andb]; [rewrite O by auto|]; reflexivity.
    + destruct (N.ltb_spec q q'); [lia|reflexivity].
Qed.
Lemma lose_slot d d' i q m : SLOTS d i q m -> lose d d' -> SLOTS d' i q m.
Proof using.
  intros (S1 & S2 & S3 & S4) (L1 & L2 & L3 & L4 & L5 & L6).
  assert (A : d_mr d' i = MOk q m). { destruct (L2 i) as [->|[->|[X _]]]; auto. destruct X. congruence. }
  assert (B : older q (d_mr d' (negb i))).
  { destruct (L2 (negb i)) as [->|[->|(_ & sec & -> & X)]]; auto. cbn. intros E. apply X; auto; eapply older_sec; eauto. }
  split; [auto|]. split; [now rewrite L5|]. split; auto. now rewrite L5.
Qed.

(** * The committed state of a device *)
Definition CS (d : dev) (C : fs) : Prop := exists i q m mq,
  SLOTS d i q m /\ q < UINT64_MAX /\ d_mst d = Some mq /\ d_mstd d = Some mq /\ mq < UINT64_MAX /\
  FSV m (d_blk d) C (fresh false m (d_blk d)) /\ good C /\ forall b, m_bits m b = true -> d_unf d b = false.

Lemma CS_intro d C i q m mq D : SLOTS d i q m -> q < UINT64_MAX -> d_mst d = Some mq -> d_mstd d = Some mq -> mq < UINT64_MAX ->
  FSV m D C (fresh false m D) -> good C -> (forall b, m_bits m b = true -> d_unf d b = false /\ d_blk d b = D b) -> CS d C.
Proof.
  intros. exists i, q, m, mq. repeat (split; auto).
  - eapply (FSV_fresh g OK); eauto. intros; now apply H6.
  - intros b Hb. now apply H6.
Qed.
Lemma CS_lose d d' C : CS d C -> lose d d' -> CS d' C.
Proof.
  intros (i & q & m & mq & S & Q & M1 & M2 & MQ & F & W & U) L. pose proof L as (L1 & L2 & L3 & L4 & L5 & L6).
  assert (E : d_mst d' = Some mq). { destruct L3 as [->|[->|[_ X]]]; auto. destruct X. congruence. }
  apply (CS_intro d' C i q m mq (d_blk d)); auto; try congruence.
  - eapply lose_slot; eauto.
Qed.
Lemma CS_mayhap d d' C wr : CS d C -> mayhap wr d d' -> 
  (forall i q m, SLOTS d i q m -> forall b, wr b = true -> m_bits m b = false) -> CS d' C.
Proof.
  intros (i & q & m & mq & S & Q & M1 & M2 & MQ & F & W & U) (H1 & H2 & H3 & H4 & H5) HW.
  assert (WB : forall b, m_bits m b = true -> wr b = false). { intros b Hb. destruct (wr b) eqn:E; auto. rewrite (HW _ _ _ S b E) in Hb. discriminate. }
  apply (CS_intro d' C i q m mq (d_blk d)); auto; try congruence.
  - destruct S as (S1 & S2 & S3 & S4). unfold SLOTS. now rewrite !H2, !H3.
  - intros b Hb. destruct (H1 b (WB b Hb)) as [-> ->]. auto.
Qed.
Lemma CS_flush d C : CS d C -> CS (dflush d) C.
Proof.
  intros (i & q & m & mq & (S1 & S2 & S3 & S4) & Q & M1 & M2 & MQ & F & W & U).
  apply (CS_intro _ C i q m mq (d_blk d)); auto.
  unfold SLOTS, dflush. cbn. auto.
Qed.

(** * The invariant of a mounted volume: working state W, committed state C *)
Record VIx (C0 : mroot) (D0 : N -> blk) (v : vol) (W C : fs) : Prop := {
  x_mnt : v_mnt v = true;
  x_q : exists q, SLOTS (v_d v) (negb (v_cur v)) q C0 /\ q < v_seq v;
  x_mq : exists mq, d_mst (v_d v) = Some mq /\ d_mstd (v_d v) = Some mq /\ mq < v_seq v;
  x_seq : v_seq v <= UINT64_MAX;
  x_w : FSV C0 D0 W (set_ro false (v_s v));
  x_c : FSV C0 D0 C (fresh false C0 D0);
  x_WF : good W;
  x_CF : good C;
  x_com : forall b, m_bits C0 b = true -> d_unf (v_d v) b = false /\ d_blk (v_d v) b = D0 b;
  x_un : forall b, s_wr (v_s v) b = false -> dk (v_s v) b = d_blk (v_d v) b }.
Definition VI (v : vol) (W C : fs) : Prop := exists C0 D0, VIx C0 D0 v W C.

Lemma set_ro_id b s : s_ro s = b -> set_ro b s = s.
Proof using. destruct s; cbn. intros <-. reflexivity. Qed.
Lemma VIx_CS C0 D0 v W C : VIx C0 D0 v W C -> CS (v_d v) C.
Proof.
  intros [X1 (q & S & Q) (mq & M1 & M2 & MQ) X4 X5 X6 X7 X8 X9 X10].
  eapply CS_intro; eauto; lia.
Qed.
Lemma VI_CS v W C : VI v W C -> CS (v_d v) C.
Proof. intros (C0 & D0 & X). eapply VIx_CS; eauto. Qed.
(** ... also while blocks outside the committed state are written *)
Lemma VIx_mayhap C0 D0 v W C wr d : VIx C0 D0 v W C -> (forall b, wr b = true -> m_bits C0 b = false) -> mayhap wr (v_d v) d -> CS d C.
Proof.
  intros X HW H. eapply CS_mayhap; [eapply VIx_CS; eauto|eauto|].
  intros i q m (S1 & S2 & S3 & S4) b Hb. destruct (x_q _ _ _ _ _ X) as (q0 & (Y1 & Y2 & Y3 & Y4) & _).
  replace m with C0; auto.
  assert (O1 : choose atom (d_mr (v_d v)) = Ok (i, q, m)) by (apply choose_older; auto).
  assert (O2 : choose atom (d_mr (v_d v)) = Ok (negb (v_cur v), q0, C0)) by (apply choose_older; auto). congruence.
Qed.
Lemma VIx_wr C0 D0 v W C : VIx C0 D0 v W C -> forall b, s_wr (v_s v) b = true -> m_bits C0 b = false.
Proof.
  intros X b Hb. destruct (FSV_Idle g OK _ _ _ _ (x_w _ _ _ _ _ X)) as [pm K].
  destruct (k_wr K b) as [A _]; auto. unfold com in A. rewrite (k_c K) in A. exact A.
Qed.

(** The set P of states of which one is committed after losing power on any of the devices. *)
Definition CR (P : fs -> Prop) (d : dev) : Prop := forall d', lose d d' -> exists X, P X /\ CS d' X.
Definition TR (P : fs -> Prop) (t : list snap) : Prop := Forall (fun sn : snap => forall d, sn d -> CR P d) t.
Lemma CS_CR (P : fs -> Prop) d C : CS d C -> P C -> CR P d.
Proof. intros H HP d' L. exists C. split; auto. eapply CS_lose; eauto. Qed.
Lemma TR_app (P : fs -> Prop) t1 t2 : TR P t1 -> TR P t2 -> TR P (t1 ++ t2).
Proof using. intros. apply Forall_app; auto. Qed.
Lemma TR_nil (P : fs -> Prop) : TR P []. Proof using. constructor. Qed.
Lemma TR_imp (P Q : fs -> Prop) t : (forall X, P X -> Q X) -> TR P t -> TR Q t.
Proof using. intros H. apply Forall_impl. intros sn X d Hd d' L. destruct (X d Hd d' L) as (Y & ? & ?). exists Y; auto. Qed.

(** * Mount *)
Lemma mount_ok C v ro : CS (v_d v) C ->
  exists v', (RedVolMountMaster ~;; RedVolMountMetaroot atom ro)%pv v = (Ok tt, v', []) /\ VI v' C C /\ s_ro (v_s v') = ro /\ v_mask v' = v_mask v /\
    v_d v' = v_d v /\ s_afree (v_s v') = 0 /\ s_br (v_s v') = s_br (v_s v).
Proof.
  intros (i & q & m & mq & S & Q & M1 & M2 & MQ & F & W & U). unfold pbind, RedVolMountMaster. rewrite M1.
  unfold RedVolMountMetaroot. cbn [vset_seq v_d v_seq v_s v_mask]. destruct S as (S1 & S2 & S3 & S4).
  rewrite (choose_older _ _ _ _ S1 S3).
  set (seq := if mq <? q then q else mq).
  assert (HS : q <= seq /\ mq <= seq /\ seq < UINT64_MAX) by (unfold seq; destruct (N.ltb_spec mq q); lia).
  destruct (N.eqb_spec seq UINT64_MAX) as [E|E]; [lia|]. eexists. split; [reflexivity|]. cbn [v_s v_mask v_d s_ro s_afree s_br].
  repeat (split; auto). exists m, (d_blk (v_d v)). constructor; cbn [v_mnt v_d v_cur v_seq v_s]; auto.
  - exists q. rewrite negb_involutive. unfold SLOTS. repeat split; auto. lia.
  - exists mq. repeat split; auto. lia.
  - lia.
  - apply (FSV_fresh g OK m (d_blk (v_d v)) C false (s_br (v_s v)) (d_blk (v_d v))); auto.
Qed.

(** * A transaction point *)
Lemma transact_ok v W C o (P : fs -> Prop) : VI v W C -> v_seq v + fst o < UINT64_MAX -> P C -> P W ->
  exists v' t, RedVolTransact o v = (Ok tt, v', t) /\ VI v' W W /\ s_ro (v_s v') = s_ro (v_s v) /\ v_mask v' = v_mask v /\ TR P t /\
    v_seq v' <= v_seq v + fst o + 1 /\ s_afree (v_s v') = 0 /\ s_br (v_s v') = false /\ m_bits (s_w (v_s v')) = m_bits (s_w (v_s v)).
Proof.
  intros (C0 & D0 & X) RM PC PW. pose proof (VIx_wr _ _ _ _ _ X) as NW. pose proof X as [X1 (q & S & Q) (mq & M1 & M2 & MQ) X4 X5 X6 X7 X8 X9 X10].
  destruct (FSV_Idle g OK _ _ _ _ X5) as [pm K].
  unfold RedVolTransact. destruct (s_br (v_s v)) eqn:B; cbn [negb].
  2:{ exists v, []. pose proof (k_br K B) as (WC & _). cbn in WC. repeat split; auto; try lia; [|constructor|].
      - exists C0, D0. constructor; auto; [exists q; auto|exists mq; auto|]. eapply (FSV_clean g OK); eauto.
      - pose proof (im_afree g _ (k_imap K)) as A. cbn [s_afree set_ro] in A. rewrite A. apply (cnt_afree0 g OK). intros. unfold cur, com. cbn. now rewrite WC. }
  destruct (N.leb_spec UINT64_MAX (v_seq v + fst o)); [lia|].
  set (s := v_s v) in *. set (dk' := fun b => if s_wr s b && negb (cur s b) then snd o b else dk s b).
  set (M := newMR s). set (seq := v_seq v + fst o) in *.
  set (d1 := dwrite (s_wr s) dk' (v_d v)). set (d2 := dflush d1). set (d3 := dwmr (v_cur v) (MOk seq M) d2). set (d4 := dflush d3).
  assert (RS : s_res s = false) by apply (k_res K).
  assert (SQ : v_seq v <= seq) by (unfold seq; lia).
  assert (CM : forall b, s_wr s b = true -> m_bits C0 b = false) by exact NW.
  assert (DK : forall b, cur s b = true -> dk' b = dk s b). { intros b Hb. unfold dk'. rewrite Hb, andb_false_r. reflexivity. }
  assert (FC : FSV M dk' W (fresh false M dk')).
  { apply (FSV_commit g OK C0 D0 W (set_ro false s) dk' X5). intros b Hb. apply DK. exact Hb. }
  assert (DB : forall b, d_blk d1 b = dk' b).
  { intros b. unfold d1, dwrite. cbn. destruct (s_wr s b) eqn:E; auto. unfold dk'. rewrite E. cbn [andb]. symmetry. apply X10; auto. }
  assert (MH : mayhap (s_wr s) (v_d v) d1).
  { unfold mayhap, d1, dwrite. cbn. repeat split; auto; rewrite H0; auto. }
  assert (C1 : CS d1 C) by (eapply VIx_mayhap; eauto).
  assert (C2 : CS d2 C) by (apply CS_flush; auto).
  assert (S4 : SLOTS d4 (v_cur v) seq M).
  { unfold SLOTS, d4, d3. cbn. rewrite eqb_reflx. repeat split; auto; destruct S as (S1 & S2 & _); destruct (v_cur v); cbn in *; rewrite S1; cbn; lia. }
  assert (C4 : CS d4 W).
  { apply (CS_intro d4 W (v_cur v) seq M mq dk'); auto; try lia. intros b _. split; [reflexivity|exact (DB b)]. }
  assert (C3 : CR P d3).
  { intros d' L. pose proof L as (L1 & L2 & L3 & L4 & L5 & L6).
    assert (B0 : forall b, d_blk d' b = dk' b) by (intros b; rewrite L1 by reflexivity; exact (DB b)).
    assert (MS : d_mst d' = Some mq) by (destruct L3 as [->|[->|[_ []]]]; auto; cbn; congruence).
    assert (O : d_mr d' (negb (v_cur v)) = MOk q C0).
    { destruct S as (S1 & _). destruct (L2 (negb (v_cur v))) as [E|[E|[E _]]]; [| |destruct E]; try rewrite E; destruct (v_cur v); cbn in *; auto. }
    assert (N0 : older q (d_mr d' (v_cur v)) \/ d_mr d' (v_cur v) = MOk seq M).
    { destruct S as (S1 & S2 & S3 & S5). rewrite negb_involutive in *. destruct (L2 (v_cur v)) as [E|[E|(_ & sec & E & Y)]].
      - left. rewrite E. exact S3.
      - right. rewrite E. unfold d3. cbn. now rewrite eqb_reflx.
      - left. rewrite E. cbn. intros At. apply Y; auto.
        + cbn. eapply older_sec; eauto.
        + unfold d3. cbn. now rewrite eqb_reflx. }
    destruct N0 as [N0|N0].
    - exists C. split; auto. apply (CS_intro d' C (negb (v_cur v)) q C0 mq D0); auto; try lia; try congruence.
      + unfold SLOTS. rewrite !L5, negb_involutive. auto.
      + intros b Hb. split; auto. rewrite B0. assert (s_wr s b = false). { destruct (s_wr s b) eqn:E; auto. rewrite CM in Hb; auto. }
        unfold dk'. rewrite H0. cbn [andb]. rewrite X10 by auto. apply X9. auto.
    - exists W. split; auto. apply (CS_intro d' W (v_cur v) seq M mq dk'); auto; try lia; try congruence.
      unfold SLOTS. rewrite !L5, O. cbn. repeat split; auto; lia. }
  eexists. eexists. split; [reflexivity|]. cbn [v_s v_mask v_seq s_ro s_afree s_br s_w]. repeat split; auto; try lia.
  - exists M, dk'. constructor; cbn [v_mnt v_d v_cur v_seq v_s]; auto.
    + exists seq. rewrite negb_involutive. split; auto. lia.
    + exists mq. repeat split; auto. lia.
    + unfold seq in *; lia.
    + replace (set_ro false (mkSt dk' (fun _ => false) M M 0 false (s_ro s) (s_res s))) with (fresh false M dk'); auto. unfold fresh, set_ro. cbn. now rewrite RS.
    + intros b _. split; [reflexivity|exact (DB b)].
    + intros b _. symmetry. exact (DB b).
  - repeat constructor.
    + intros d Hd. eapply CS_CR; [|exact PC]. eapply VIx_mayhap; eauto.
    + intros d <-. eapply CS_CR; eauto.
    + intros d <-. eapply CS_CR; eauto.
    + intros d <-. exact C3.
    + intros d <-. eapply CS_CR; eauto.
Qed.

(** * Rollback *)
Lemma rollback_ok v W C : VI v W C -> s_ro (v_s v) = false ->
  exists v', RedVolRollback atom v = (Ok tt, v', []) /\ VI v' C C /\ s_ro (v_s v') = false /\ v_mask v' = v_mask v /\ v_d v' = v_d v.
Proof.
  intros X RO. unfold RedVolRollback. destruct (s_br (v_s v)) eqn:B; cbn [negb].
  - destruct (mount_ok C v false (VI_CS _ _ _ X)) as (v' & R & (C0 & D0 & Y) & A1 & A2 & A3 & A4 & A5). rewrite R.
    eexists. split; [reflexivity|]. cbn. split; [|auto]. exists C0, (d_blk (v_d v)). destruct Y as [X1 X2 X3 X4 X5 X6 X7 X8 X9 X10].
    pose proof R as R'. unfold pbind, RedVolMountMaster in R'. destruct (d_mst (v_d v)); [|discriminate]. unfold RedVolMountMetaroot in R'.
    destruct (choose atom (d_mr (v_d (vset_seq n v)))) as [[[i q] m]|]; [|discriminate].
    destruct ((if v_seq (vset_seq n v) <? q then q else v_seq (vset_seq n v)) =? UINT64_MAX); [discriminate|]. injection R' as <-.
    constructor; cbn [v_mnt v_d v_cur v_seq v_s vset_s set_br s_wr dk] in *; auto.
    + destruct (FSV_Idle g OK _ _ _ _ X5) as [pm K]. pose proof (k_c K) as KC. cbn in KC. subst m.
      apply (FSV_fresh g OK C0 D0 C false false); auto. intros b Hb. apply X9. auto.
    + apply (FSV_fresh g OK C0 D0 C false false); auto. intros b Hb. apply X9. auto.
    + intros b Hb. split; auto. apply X9; auto.
  - destruct X as (C0 & D0 & X). pose proof X as [X1 X2 X3 X4 X5 X6 X7 X8 X9 X10].
    exists v. split; [reflexivity|]. repeat split; auto. exists C0, D0. constructor; auto.
    eapply (FSV_clean' g OK C0 D0 C W); eauto.
Qed.

(** * The core operations *)
(** [bad]: the operation may fail with a critical error, which makes the volume read-only. *)
Definition OPS {A} (bad : Prop) (m : M st A) (R : A -> fs -> fs -> Prop) (E : fs -> errno -> Prop) : Prop :=
  ws m /\ forall C0 D0 F s, FSV C0 D0 F s -> good F ->
    match m s with
    | (Ok a, s') => exists F', R a F F' /\ good F' /\ FSV C0 D0 F' s'
    | (Err e, s') => bad /\ s_ro s' = true \/ E F e /\ FSV C0 D0 F s'
    end.
Lemma VIx_vs C0 D0 v W C s' W' : VIx C0 D0 v W C -> wle (v_s v) s' -> FSV C0 D0 W' (set_ro false s') -> good W' -> VIx C0 D0 (vset_s s' v) W' C.
Proof.
  intros [X1 X2 X3 X4 X5 X6 X7 X8 X9 X10] (L1 & L2 & L3 & L4 & L5) HF HW. constructor; auto.
  cbn. intros b Hb. rewrite L2 by auto. apply X10. destruct (s_wr (v_s v) b) eqn:E; auto. rewrite L1 in Hb; auto.
Qed.
Lemma core_ok {A} bad (m : M st A) R E v W C : OPS bad m R E -> VI v W C -> s_ro (v_s v) = false ->
  exists r v' t, core m v = (r, v', t) /\ v_mask v' = v_mask v /\ v_seq v' = v_seq v /\
    match r with
    | Ok a => exists W', R a W W' /\ VI v' W' C /\ s_ro (v_s v') = false /\ TR (eq C) t
    | Err e => bad /\ s_ro (v_s v') = true \/ E W e /\ VI v' W C /\ s_ro (v_s v') = false /\ TR (eq C) t
    end.
Proof.
  intros (WL & HO) (C0 & D0 & X) RO. pose proof (x_w _ _ _ _ _ X) as FW. rewrite (set_ro_id false _ RO) in FW.
  specialize (HO C0 D0 W (v_s v) FW (x_WF _ _ _ _ _ X)). specialize (WL (v_s v)). cbn in WL. unfold core.
  destruct (m (v_s v)) as [r s'] eqn:RUN. cbn [snd] in WL. eexists. eexists. eexists. split; [reflexivity|]. cbn [vset_s v_s v_mask v_seq]. split; auto. split; auto.
  assert (GO : forall W', good W' -> FSV C0 D0 W' s' -> VI (vset_s s' v) W' C /\ s_ro s' = false /\ TR (eq C) [mayhap (s_wr s') (v_d v)]).
  { intros W' HW FW'. destruct (FSV_Idle g OK _ _ _ _ FW') as [pm K]. pose proof (k_ro K) as RO'. 
    assert (Y : VIx C0 D0 (vset_s s' v) W' C) by (apply (VIx_vs C0 D0 v W C s' W' X WL); auto; now rewrite (set_ro_id false _ RO')).
    split; [exists C0, D0; auto|]. split; auto. repeat constructor. intros d Hd. eapply CS_CR; [|reflexivity].
    eapply (VIx_mayhap C0 D0 _ W' C (s_wr s') d Y); auto. apply (VIx_wr _ _ _ _ _ Y). }
  destruct r as [a|e].
  - destruct HO as (F' & HR & HW & HF). exists F'. split; auto.
  - destruct HO as [?|(HE & HF)]; auto. right. split; auto. apply GO; auto. apply X.
Qed.
Lemma core_ro {A} (m : M st A) v r v' t : ws m -> core m v = (r, v', t) -> s_ro (v_s v) = true -> s_ro (v_s v') = true.
Proof using.
  intros WL. specialize (WL (v_s v)). cbn in WL. unfold core. destruct (m (v_s v)) as [r0 s']. intros E; injection E as <- <- <-. cbn in *. apply WL.
Qed.
Lemma transact_ro o v r v' t : RedVolTransact o v = (r, v', t) -> s_ro (v_s v) = true -> s_ro (v_s v') = true.
Proof using.
  unfold RedVolTransact. destruct (s_br (v_s v)); cbn [negb]; [|congruence]. destruct (UINT64_MAX <=? v_seq v + fst o); intros E; injection E as <- <- <-; auto.
Qed.

(** ** ... with automatic transactions *)
Lemma autocommit_ok {A} bad (m : M st A) R E ev o1 o2 v W C : OPS bad m R E -> VI v W C -> s_ro (v_s v) = false ->
  v_seq v + fst o1 + fst o2 + 2 <= UINT64_MAX ->
  exists r v' t, autocommit ev m o1 o2 v = (r, v', t) /\ v_mask v' = v_mask v /\
    (bad /\ s_ro (v_s v') = true \/ s_ro (v_s v') = false /\
     exists W' Cm C', VI v' W' C' /\
       (Cm = C \/ has (v_mask v) T_VOLFULL = true /\ Cm = W) /\
       TR (fun X => X = C \/ X = Cm \/ (exists a, r = Ok a) /\ has (v_mask v) ev = true /\ X = W') t /\
       match r with
       | Ok a => R a W W' /\ C' = (if has (v_mask v) ev then W' else Cm)
       | Err e => E W e /\ W' = W /\ C' = Cm
       end).
Proof.
  intros HO HV RO RM. unfold autocommit, guard. assert (MN : v_mnt v = true) by (destruct HV as (? & ? & X); apply X). rewrite MN, RO. cbn [negb].
  (* the first part *)
  set (part1 := pcatch (core m) _).
  assert (P1 : exists r v1 t1, part1 v = (r, v1, t1) /\ v_mask v1 = v_mask v /\
     (bad /\ s_ro (v_s v1) = true \/ s_ro (v_s v1) = false /\ v_seq v1 <= v_seq v + fst o1 + 1 /\
      exists W' Cm, VI v1 W' Cm /\ (Cm = C \/ has (v_mask v) T_VOLFULL = true /\ Cm = W) /\ TR (fun X => X = C \/ X = Cm) t1 /\
        match r with Ok a => R a W W' | Err e => E W e /\ W' = W end)).
  { unfold part1, pcatch. destruct (core_ok bad m R E v W C HO HV RO) as (r & v1 & t1 & R1 & MK & SQ & X). rewrite R1.
    destruct r as [a|e].
    - unfold pret. destruct X as (W' & HR & HV' & RO' & HT). eexists. eexists. eexists. split; [reflexivity|]. split; auto. right. split; auto. split; [lia|].
      exists W', C. split; auto. split; auto. split; auto. apply TR_app; [|apply TR_nil]. eapply TR_imp; [|exact HT]. intros Y ->. auto.
    - destruct X as [(BAD & RB)|(HE & HV' & RO' & HT)].
      { (* critical error in the first attempt *)
        set (K := match e with ENOSPC => _ | _ => _ end). change (exists r v2 t2, (let '(r2, v2, t2) := K in (r2, v2, t1 ++ t2)) = (r, v2, t2) /\ v_mask v2 = v_mask v /\
     (bad /\ s_ro (v_s v2) = true \/ s_ro (v_s v2) = false /\ v_seq v2 <= v_seq v + fst o1 + 1 /\
      exists W' Cm, VI v2 W' Cm /\ (Cm = C \/ has (v_mask v) T_VOLFULL = true /\ Cm = W) /\ TR (fun X => X = C \/ X = Cm) t2 /\
        match r with Ok a => R a W W' | Err e => E W e /\ W' = W end)). destruct K as [[r2 v2] t2] eqn:KK. unfold K in KK. clear K.
        exists r2, v2, (t1 ++ t2). split; auto.
        assert (Z : v_mask v2 = v_mask v1 /\ s_ro (v_s v2) = true).
        { destruct e; try (injection KK as <- <- <-; auto). destruct (has (v_mask v1) T_VOLFULL && (0 <? s_afree (v_s v1))); [|injection KK as <- <- <-; auto].
          unfold pbind in KK. destruct (RedVolTransact o1 v1) as [[r3 v3] t3] eqn:TT.
          pose proof (transact_ro _ _ _ _ _ TT RB) as RO3.
          assert (MK3 : v_mask v3 = v_mask v1). { unfold RedVolTransact in TT. destruct (negb (s_br (v_s v1))); [congruence|]. destruct (UINT64_MAX <=? v_seq v1 + fst o1); injection TT as <- <- <-; auto. }
          destruct r3 as [[]|]; [|injection KK as <- <- <-; auto].
          destruct (core m v3) as [[r4 v4] t4] eqn:CC. injection KK as <- <- <-. split.
          - unfold core in CC. destruct (m (v_s v3)). injection CC as <- <- <-. auto.
          - destruct HO as [WL _]. eapply core_ro; eauto. }
        destruct Z as [Z1 Z2]. split; [congruence|]. auto. }
      destruct (errno_eq_dec e ENOSPC) as [->|Ne].
      + destruct (has (v_mask v1) T_VOLFULL) eqn:VF; cbn [andb].
        2:{ unfold pfail. eexists. eexists. eexists. split; [reflexivity|]. split; auto. right. split; auto. split; [lia|].
            exists W, C. split; auto. split; auto. split; auto. apply TR_app; [|apply TR_nil]. eapply TR_imp; [|exact HT]. intros Y ->. auto. }
        destruct (0 <? s_afree (v_s v1)); cbn [andb].
        2:{ unfold pfail. eexists. eexists. eexists. split; [reflexivity|]. split; auto. right. split; auto. split; [lia|].
            exists W, C. split; auto. split; auto. split; auto. apply TR_app; [|apply TR_nil]. eapply TR_imp; [|exact HT]. intros Y ->. auto. }
        unfold pbind. destruct (transact_ok v1 W C o1 (fun X => X = C \/ X = W) HV' ltac:(lia) (or_introl eq_refl) (or_intror eq_refl)) as (v2 & t2 & R2 & HV2 & RO2 & MK2 & HT2 & SQ2 & _).
        rewrite R2. destruct (core_ok bad m R E v2 W W HO HV2 ltac:(congruence)) as (r3 & v3 & t3 & R3 & MK3 & SQ3 & X3). rewrite R3.
        eexists. eexists. eexists. split; [reflexivity|]. split; [congruence|].
        assert (TT : TR (eq W) t3 -> TR (fun X => X = C \/ X = W) (t1 ++ t2 ++ t3)).
        { intros HT3. apply TR_app; [|apply TR_app]; auto; [eapply TR_imp; [|exact HT]; intros Y ->; auto|eapply TR_imp; [|exact HT3]; intros Y ->; auto]. }
        destruct r3 as [a|e].
        * destruct X3 as (W' & HR & HV3 & RO3 & HT3). right. split; auto. split; [lia|]. exists W', W. split; auto. split; [right; split; auto; congruence|]. split; auto.
        * destruct X3 as [(BAD & RB)|(HE3 & HV3 & RO3 & HT3)]; auto. right. split; auto. split; [lia|]. exists W, W. split; auto. split; [right; split; auto; congruence|]. split; auto.
      + exists (Err e), v1, (t1 ++ []). split; [destruct e; try reflexivity; congruence|]. split; auto. right. split; auto. split; [lia|].
        exists W, C. split; auto. split; auto. split; auto. apply TR_app; [|apply TR_nil]. eapply TR_imp; [|exact HT]. intros Y ->. auto. }
  destruct P1 as (r & v1 & t1 & R1 & MK & X). unfold pbind at 1. rewrite R1. clearbody part1.
  destruct r as [a|e].
  2:{ eexists. eexists. eexists. split; [reflexivity|]. split; auto. destruct X as [X|(RO1 & SQ & W' & Cm & HV1 & HC & HT & HE & ->)]; auto. right. split; auto.
      exists W, Cm, Cm. split; auto. split; auto. split; auto. eapply TR_imp; [|exact HT]. tauto. }
  destruct X as [(BAD & RB)|(RO1 & SQ & W' & Cm & HV1 & HC & HT & HR)].
  { rewrite MK. destruct (has (v_mask v) ev).
    - unfold pbind. destruct (RedVolTransact o2 v1) as [[r3 v3] t3] eqn:TT. pose proof (transact_ro _ _ _ _ _ TT RB) as RO3.
      assert (MK3 : v_mask v3 = v_mask v1). { unfold RedVolTransact in TT. destruct (negb (s_br (v_s v1))); [congruence|]. destruct (UINT64_MAX <=? v_seq v1 + fst o2); injection TT as <- <- <-; auto. }
      destruct r3 as [[]|]; unfold pret; eexists; eexists; eexists; (split; [reflexivity|]); split; auto; congruence.
    - unfold pret. eexists. eexists. eexists. split; [reflexivity|]. auto. }
  rewrite MK. destruct (has (v_mask v) ev) eqn:HE.
  - unfold pbind. destruct (transact_ok v1 W' Cm o2 (fun X => X = Cm \/ X = W') HV1 ltac:(lia) (or_introl eq_refl) (or_intror eq_refl)) as (v2 & t2 & R2 & HV2 & RO2 & MK2 & HT2 & SQ2 & _).
    rewrite R2. unfold pret. eexists. eexists. eexists. split; [reflexivity|]. split; [congruence|]. right. split; [congruence|].
    exists W', Cm, W'. split; auto. split; auto. split; auto. apply TR_app; [eapply TR_imp; [|exact HT]; tauto|]. rewrite app_nil_r. eapply TR_imp; [|exact HT2]. intros Y [->| ->]; eauto. right; right. split; eauto.
  - unfold pret. eexists. eexists. eexists. split; [reflexivity|]. split; auto. right. split; auto. exists W', Cm, Cm. split; auto. split; auto. split; auto.
    rewrite app_nil_r. eapply TR_imp; [|exact HT]. tauto.
Qed.

(** * Unmount *)
Definition UI (v : vol) (C : fs) : Prop := v_mnt v = false /\ CS (v_d v) C /\ s_res (v_s v) = false.
Lemma VI_res v W C : VI v W C -> s_res (v_s v) = false.
Proof. intros (C0 & D0 & X). destruct (FSV_Idle g OK _ _ _ _ (x_w _ _ _ _ _ X)) as [pm K]. exact (k_res K). Qed.
Lemma unmount_ok v W C o : VI v W C -> v_seq v + fst o < UINT64_MAX ->
  exists v' t, RedCoreVolUnmount o v = (Ok tt, v', t) /\ v_mask v' = v_mask v /\
    UI v' (if negb (s_ro (v_s v)) && has (v_mask v) T_UMOUNT then W else C) /\
    TR (fun X => X = C \/ negb (s_ro (v_s v)) && has (v_mask v) T_UMOUNT = true /\ X = W) t.
Proof.
  intros HV RM. unfold RedCoreVolUnmount, pbind. destruct (negb (s_ro (v_s v)) && has (v_mask v) T_UMOUNT).
  - destruct (transact_ok v W C o (fun X => X = C \/ true = true /\ X = W) HV RM (or_introl eq_refl) (or_intror (conj eq_refl eq_refl))) as (v' & t & R & HV' & RO & MK & HT & _).
    rewrite R. unfold pmod. eexists. eexists. split; [reflexivity|]. split; auto. split.
    + split; [reflexivity|]. cbn. split; [eapply VI_CS|eapply VI_res]; eauto.
    + rewrite app_nil_r. auto.
  - unfold pret, pmod. eexists. eexists. split; [reflexivity|]. split; auto. split; [|apply TR_nil].
    split; [reflexivity|]. cbn. split; [eapply VI_CS|eapply VI_res]; eauto.
Qed.

(** * Evictions between calls *)
Lemma back_ok v W C d seq : VI v W C -> mayhap (s_wr (v_s v)) (v_d v) d -> v_seq v <= seq <= UINT64_MAX -> VI (vset_seq seq (vset_d d v)) W C.
Proof.
  intros (C0 & D0 & X) H HS. pose proof (VIx_wr _ _ _ _ _ X) as NW. destruct X as [X1 (q & S & Q) (mq & M1 & M2 & MQ) X4 X5 X6 X7 X8 X9 X10].
  destruct H as (H1 & H2 & H3 & H4 & H5). exists C0, D0. constructor; cbn; auto; try lia.
  - exists q. split; [|lia]. unfold SLOTS in *. now rewrite !H2, !H3.
  - exists mq. rewrite H4, H5. repeat split; auto. lia.
  - intros b Hb. destruct (H1 b) as [-> ->]; auto. destruct (s_wr (v_s v) b) eqn:E; auto. rewrite NW in Hb; auto.
  - intros b Hb. destruct (H1 b Hb) as [-> _]. auto.
Qed.
End V.
