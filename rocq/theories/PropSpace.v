(** Blocks, inodes and running out of space: C18, C24, C36, C37. *)
From Verif Require Import Base Count FsState FsImap FsInode FsData FsTree FsImapProof FsInv FsStep FsBranch FsRead FsWrite FsVol FsVol2 FsVol3 FsVol4 FsWp FsDir FsDirP FsCore FsWr FsRo FsSpec FsSpecP FsSpecN FsCoreP FsCoreP2 FsCoreP3 FsCoreP4 FsCoreP5 FsMach FsVolume FsVolumeP FsReach FsKeep PropFs PropNs.
Ltac Zify.zify_post_hook ::= idtac.

Section Defs.
Variable g : cfg.
(** The two slots of an inode number (two blocks of the inode table). *)
Definition slot (i w : N) : N := ITAB g + 2 * (i - 2) + w.
(** The allocation map of the working state marks the block as used; the one of the committed state. *)
Definition used (v : vol) (b : N) : bool := m_bits (s_w (v_s v)) b.
Definition used_committed (v : vol) (b : N) : bool := m_bits (s_c (v_s v)) b.
(** The inode [i] as stored in its slot in use. *)
Definition inode_is (v : vol) (i : N) (io : inode) : Prop :=
  2 <= i < 2 + ICNT g /\ exists w, w <= 1 /\ used v (slot i w) = true /\ dk (v_s v) (slot i w) = BInode io.
Definition node_ent (b : blk) (k : N) : N := match b with BIndir _ e | BDindir _ e => e k | _ => 0 end.
(** Height of what entry [e] of an inode refers to: data block, indirect, double indirect node. *)
Definition height (e : N) : N := if e <? NDIR g then 0 else if e <? NDIR g + NIND g then 1 else 2.
(** Following the entries [path], starting in inode [i], leads to block [b], the root of a tree of
    height [h]. *)
Inductive refers (v : vol) (i : N) : list N -> N -> N -> Prop :=
| rf_inode io e : inode_is v i io -> e < IE g -> i_ent io e <> 0 -> refers v i [e] (height e) (i_ent io e)
| rf_node path h b k : refers v i path (h + 1) b -> k < PE g -> node_ent (dk (v_s v) b) k <> 0 ->
    refers v i (path ++ [k]) h (node_ent (dk (v_s v) b) k).
(** The root directory is empty. *)
Variable atom : bool.
Variable MM TM : N.
Definition bare (v : vol) : Prop := forall k nm i, ~ at_pos g atom MM TM v ROOT k nm i.
End Defs.

Definition path_of (p : ptr) : list N := match p with P1 e => [e] | P2 e k => [e; k] | P3 e d k => [e; d; k] end.
Lemma path_of_inj p q : path_of p = path_of q -> p = q.
Proof. destruct p, q; cbn; congruence. Qed.

Section P.
Variable g : cfg.
Hypothesis OK : cfg_ok g.
Variable atom : bool.
Variable MM TM TD : N.
Set Default Proof Using "All".
Notation exec := (exec g atom MM TM).
Notation step := (step g atom MM TM TD).
Notation reach := (reach g atom MM TM TD).
Notation Sim := (Sim g atom).
Notation ask := (ask g atom MM TM).
Notation refers := (refers g).
Notation bare := (bare g atom MM TM).
Notation at_pos := (at_pos g atom MM TM).
Notation shows := (shows g atom MM TM).

Lemma slot_eq i w : 2 <= i -> slot g i w = InodeBlock g i w.
Proof using. intros. unfold slot, InodeBlock, INODE_FIRST_VALID. lia. Qed.

Section Tree.
Variables (C0 : mroot) (D0 : N -> blk) (pm : pmap) (v : vol).
Hypothesis K : Idle g C0 D0 false pm (set_ro false (v_s v)).
Lemma inode_T i io : inode_is g v i io <-> T g (v_s v) i = Some io.
Proof.
  unfold inode_is, T. destruct (INODE_IS_VALID g i) eqn:V.
  - pose proof (proj1 (valid_iff g OK i) V) as R. destruct (k_slot K i V) as [S _]. cbn [cur s_w set_ro] in S. change (cur (set_ro false (v_s v))) with (cur (v_s v)) in S. split.
    + intros (_ & w & Hw & U & E). rewrite slot_eq in * by lia. unfold used in U. fold (cur (v_s v) (InodeBlock g i w)) in U. assert (w = 0 \/ w = 1) as [-> | ->] by lia.
      * rewrite U, E. auto.
      * rewrite U, andb_true_r in S. rewrite S, U, E. auto.
    + intros H. split; auto. destruct (cur (v_s v) (InodeBlock g i 0)) eqn:U0; [exists 0|destruct (cur (v_s v) (InodeBlock g i 1)) eqn:U1; [exists 1|discriminate]]; rewrite !slot_eq by lia.
      * split; [lia|]. split; auto. destruct (dk (v_s v) (InodeBlock g i 0)); try discriminate. congruence.
      * split; [lia|]. split; auto. destruct (dk (v_s v) (InodeBlock g i 1)); try discriminate. congruence.
  - split; [|discriminate]. intros (R & _). apply (valid_iff g OK) in R. congruence.
Qed.
Lemma view_T i : i <> 0 -> view g (set_ro false (v_s v)) 0 inode0 i = T g (v_s v) i.
Proof using. intros H. unfold view. destruct (N.eqb_spec i 0); [tauto|]. reflexivity. Qed.
Lemma node_mk h o e k : node_ent (mknode h o e) k = e k.
Proof using. unfold mknode. destruct (h =? 2); reflexivity. Qed.
Lemma refers_pm i path h b : refers v i path h b -> exists p, vptr g p /\ path = path_of p /\ phgt g p = h /\ pm i p = b /\ b <> 0.
Proof.
  induction 1 as [io e HI He HN|path h b k HR (p & V & E & H & B & BN) Hk HN].
  - apply inode_T in HI. assert (i <> 0) by (eapply (T_ne g); eauto). exists (P1 e). split; auto. split; auto. split; auto. split; auto.
    symmetry. apply (r_ino (k_rep K) i io e); auto; [now rewrite view_T|]. intros [_ []].
  - assert (PH : 0 < phgt g p) by lia. destruct (r_node (k_rep K) i p ltac:(congruence) PH) as (o & e & ED & EE). cbn [dk set_ro] in ED. rewrite B in ED. rewrite ED, node_mk in HN |- *.
    assert (EK : e k = pm i (child p k)) by (apply EE; auto; intros [_ []]). exists (child p k). split; [apply child_vptr; auto|]. split; [|split; [rewrite child_phgt by auto; lia|split; auto]].
    subst path. destruct p; cbn [path_of child app]; auto. cbn in PH. lia.
Qed.
Lemma pm_refers i p : vptr g p -> pm i p <> 0 -> refers v i (path_of p) (phgt g p) (pm i p).
Proof.
  assert (A : forall e, vptr g (P1 e) -> pm i (P1 e) <> 0 -> refers v i [e] (phgt g (P1 e)) (pm i (P1 e))).
  { intros e V H. destruct (t_dom (k_tree K) i (P1 e) H) as [LV _]. change (lv g (set_ro false (v_s v)) i) with (lv g (v_s v) i) in LV.
    assert (i <> 0) by (intros ->; discriminate LV). destruct (k_ino K i LV H0) as (io & TI). change (T g (set_ro false (v_s v)) i) with (T g (v_s v) i) in TI.
    assert (EE : i_ent io e = pm i (P1 e)). { apply (r_ino (k_rep K) i io e); [now rewrite view_T|exact V|]. intros [_ []]. }
    rewrite <- EE in *. apply rf_inode; auto. apply inode_T; auto. }
  assert (B : forall p k, vptr g p -> 0 < phgt g p -> k < PE g -> (pm i p <> 0 -> refers v i (path_of p) (phgt g p) (pm i p)) -> pm i (child p k) <> 0 -> refers v i (path_of p ++ [k]) (phgt g p - 1) (pm i (child p k))).
  { intros q k V PH Hk IH H. assert (NZ : pm i q <> 0) by (intros Z; apply H; apply (r_zero (k_rep K)); auto).
    destruct (r_node (k_rep K) i q NZ PH) as (o & e & ED & EE). cbn [dk set_ro] in ED. assert (EK : e k = pm i (child q k)) by (apply EE; auto; intros [_ []]).
    specialize (IH NZ). replace (phgt g q) with (phgt g q - 1 + 1) in IH by lia. pose proof (rf_node g v i _ _ _ k IH Hk) as X. rewrite ED, node_mk, EK in X. auto. }
  intros V H. destruct p as [e|e k|e d k]; cbn [path_of].
  - apply A; auto.
  - destruct V as (V1 & V2 & V3). apply (B (P1 e) k); auto; cbn [phgt]; try lia. intros NZ. apply A; auto.
  - destruct V as (V1 & V2 & V3 & V4). assert (B2 : pm i (P2 e d) <> 0 -> refers v i [e; d] (phgt g (P2 e d)) (pm i (P2 e d))).
    { intros NZ. apply (B (P1 e) d); auto; cbn [phgt]; try lia. intros NZ1. apply A; auto. }
    pose proof (B (P2 e d) k ltac:(cbn; repeat split; auto; lia) ltac:(cbn; lia) V4 B2 H) as X. cbn [phgt path_of app child] in *. replace (hgt g e - 1 - 1) with 0 in X by lia. exact X.
Qed.
End Tree.

Lemma Sim_core v W C ro mask : Sim v (Mnt W C ro mask) -> exists C0 D0 V pm, VP g C0 D0 false pm V [] (set_ro false (v_s v)) /\ REP g V W.
Proof. intros ((C0 & D0 & X) & _). destruct (x_w _ _ _ _ _ _ _ X) as (V & (pm & K) & HR). exists C0, D0, V, pm. auto. Qed.

(** * C18 *)
(** Every block that a file or node refers to is marked as used; every block marked as used is
    referred to from exactly one place; and the counters of free blocks count the others. *)
Theorem C18_owner v : reach v -> v_mnt v = true ->
  (forall i path h b, refers v i path h b -> FA g <= b < BC g /\ used v b = true) /\
  (forall b, FA g <= b < BC g -> used v b = true -> exists i path h, refers v i path h b) /\
  (forall i j path path' h h' b, refers v i path h b -> refers v j path' h' b -> i = j /\ path = path' /\ h = h').
Proof.
  intros R MN. destruct (reach_mnt g OK atom MM TM TD v R MN) as (W & C & SA). destruct (Sim_core _ _ _ _ _ SA) as (C0 & D0 & V & pm & (K & _) & _).
  pose proof (k_tree K) as [T1 T2 T3 T4]. split; [|split].
  - intros i path h b H. destruct (refers_pm C0 D0 pm v K i path h b H) as (p & _ & _ & _ & E & NZ). subst b. apply (T2 i p NZ).
  - intros b Hb U. destruct (T4 b Hb U) as (i & p & E). assert (NZ : pm i p <> 0) by (pose proof (FA_pos g OK); lia). destruct (T1 i p NZ) as [_ VP]. exists i, (path_of p), (phgt g p). rewrite <- E. apply (pm_refers C0 D0 pm v K); auto.
  - intros i j path path' h h' b H H'. destruct (refers_pm C0 D0 pm v K i path h b H) as (p & _ & E1 & E2 & E3 & NZ). destruct (refers_pm C0 D0 pm v K j path' h' b H') as (q & _ & E1' & E2' & E3' & _).
    destruct (T3 i p j q) as [-> ->]; [congruence|congruence|]. subst; auto.
Qed.
(** Free and almost free blocks are the ones that nothing refers to. *)
Theorem C18_free_count v : reach v -> v_mnt v = true ->
  m_free (s_w (v_s v)) + s_afree (v_s v) = count (fun b => negb (used v b)) (FA g) (BC g).
Proof.
  intros R MN. destruct (reach_mnt g OK atom MM TM TD v R MN) as (W & C & SA). destruct (Sim_core _ _ _ _ _ SA) as (C0 & D0 & V & pm & (K & _) & _).
  exact (free_total g OK _ (k_imap K)).
Qed.
(** A volume whose root directory is empty has no files, ... *)
Lemma bare_W v W C ro mask : Sim v (Mnt W C ro mask) -> bare v -> forall i, i <> ROOT -> W i = None.
Proof.
  intros SA B. assert (NE : forall k nm i, ~ entry W ROOT k nm i) by (intros k nm i H; apply (B k nm i); apply (at_pos_W g OK atom MM TM TD _ _ _ _ _ SA); auto).
  pose proof (Sim_WF g OK atom MM TM TD _ _ _ _ _ SA) as WFW.
  assert (DR : forall i, Reach W i -> i = ROOT). { induction 1 as [|i p sl E R IH]; auto. subst p. destruct (N.eq_dec i ROOT) as [|N]; auto. destruct (wf_dir W WFW i ROOT sl E N) as (k & nm & H & _). exfalso. eapply NE; eauto. }
  intros i N. destruct (node_cases W i) as [?|[D|F]]; auto; exfalso.
  - apply N. apply DR. apply (wf_reach W WFW); auto.
  - destruct F as (nl & sz & b & F). destruct (wf_file W WFW _ _ _ _ F) as (A & L & ND & LN & H). destruct L as [|[d k] L]; [unfold lenN in LN; cbn in LN; lia|]. destruct (proj1 (H d k) (or_introl eq_refl)) as (nm & E).
    assert (d = ROOT) by (apply DR; apply (wf_reach W WFW); eapply entry_dir; eauto). subst. eapply NE; eauto.
Qed.
(** ... and all blocks are unused. *)
Lemma bare_unused v : reach v -> v_mnt v = true -> bare v -> forall b, FA g <= b < BC g -> used v b = false.
Proof.
  intros R MN B b Hb. destruct (used v b) eqn:U; auto. exfalso. destruct (reach_mnt g OK atom MM TM TD v R MN) as (W & C & SA). pose proof (bare_W _ _ _ _ _ SA B) as BW.
  destruct (Sim_core _ _ _ _ _ SA) as (C0 & D0 & V & pm & HV & HR). pose proof HV as (K & VE & _).
  destruct (t_onto (k_tree K) b Hb U) as (i & p & E). assert (NZ : pm i p <> 0) by (pose proof (FA_pos g OK); lia).
  destruct (t_dom (k_tree K) i p NZ) as [LV _].
  assert (N0 : i <> 0) by (intros ->; discriminate LV). destruct (k_ino K i LV N0) as (io & TI). destruct (k_fit K i io TI N0) as [[L1 _ _] _].
  specialize (VE i). unfold absV in VE. rewrite TI in VE. cbn [option_map] in VE. destruct (N.eq_dec i ROOT) as [->|N].
  - pose proof (Sim_WF g OK atom MM TM TD _ _ _ _ _ SA) as WFW. destruct (wf_root W WFW) as (sl & RT). destruct (REP_dir g OK V W ROOT 0 sl HR RT) as (a & n & Va & _ & _ & DR).
    rewrite Va in VE. destruct VE as (SZ & _). cbn [a_size absI] in SZ. assert (n = 0).
    { destruct (N.eq_dec n 0) as [|Nn]; auto. exfalso. destruct (sl (n - 1)) as [[nm j]|] eqn:S; [|apply (dr_last _ _ _ _ DR); auto; lia]. apply (B (n - 1) nm j). apply (at_pos_W g OK atom MM TM TD _ _ _ _ _ SA). exists 0, sl. auto. }
    subst n. pose proof (dr_size _ _ _ _ DR) as DS. unfold dsize in DS. change (0 =? 0) with true in DS. cbv iota in DS. specialize (L1 p NZ). rewrite SZ, DS in L1. apply N.nlt_0_r in L1. exact L1.
  - specialize (HR i). rewrite (BW i N) in HR. destruct (V i); cbn in HR; [tauto|]. exact VE.
Qed.
(** After a transaction point, a volume without files has all its blocks and inodes free, whatever
    happened to it before. *)
Theorem C18_all_deleted v0 c r v : reach v0 -> step v0 (Some (ECall c (Ok r))) v -> commit_call (v_mask v0) c -> bare v ->
  forall o1 o2, exec CVolStat o1 o2 v = (Ok (OVStat (NALLOC g - RESV g, ICNT g - 1, s_ro (v_s v))), v, []).
Proof.
  intros R0 S CC B o1 o2. assert (R : reach v) by (eapply reach_step; eauto).
  destruct (commit_sim g OK atom MM TM TD v0 c r v R0 S CC) as (W & SA). pose proof (Sim_mnt g OK atom MM TM TD _ _ _ _ _ SA) as MN.
  destruct (commit_x g OK atom MM TM TD v0 c r v R0 S CC) as (C0 & D0 & W' & X & EC).
  pose proof (C18_free_count v R MN) as FC. assert (AF : s_afree (v_s v) = 0).
  { destruct (FSV_Idle g OK _ _ _ _ (x_w _ _ _ _ _ _ _ X)) as [pm K]. pose proof (k_c K) as KC. cbn [s_c set_ro] in KC. destruct (k_imap K) as [_ IA _]. cbn [s_afree set_ro] in IA. rewrite IA.
    apply count_0. intros b _. unfold afree_blk, cur, com. cbn [s_w s_c set_ro]. rewrite KC, EC. destruct (m_bits C0 b); auto. }
  rewrite AF, N.add_0_r in FC. assert (FN : m_free (s_w (v_s v)) = NALLOC g).
  { rewrite FC. unfold NALLOC. apply count_all. intros b Hb. rewrite (bare_unused v R MN B b Hb). auto. }
  assert (FI : m_freei (s_w (v_s v)) = ICNT g - 1).
  { destruct SA as (HV & _ & _). rewrite (freei_count g OK atom MM TM TD v W W HV). unfold free_inodes.
    assert (SA : Sim v (Mnt W W (s_ro (v_s v)) (v_mask v))) by (split; auto). pose proof (bare_W _ _ _ _ _ SA B) as BW. pose proof (wf_root W (Sim_WF g OK atom MM TM TD _ _ _ _ _ SA)) as (sl & RT).
    pose proof (ok_ICNT g OK) as IC. rewrite (count_split _ ROOT (ROOT + 1)) by lia.
    rewrite (count_0 _ ROOT (ROOT + 1)). 2:{ intros i Hi. replace i with ROOT by lia. now rewrite RT. }
    rewrite count_all; [lia|]. intros i Hi. rewrite BW; auto. lia. }
  cbn [FsVolume.exec]. unfold omap, pbind, RedCoreVolStat, pret. rewrite MN, FN, FI. cbn [negb]. cbv zeta.
  replace (if RESV g <? NALLOC g then NALLOC g - RESV g else 0) with (NALLOC g - RESV g); auto. destruct (N.ltb_spec (RESV g) (NALLOC g)); lia.
Qed.

(** * C36 *)
(** After formatting, a mount succeeds and shows an empty root directory, nothing else, all blocks
    and all other inodes free. *)
Theorem C36_format v v1 flags : reach v -> step v (Some (ECall CFormat (Ok OUnit))) v1 -> N.land flags MM = flags ->
  v_seq v1 + 5 <= UINT64_MAX ->
  exists v2, step v1 (Some (ECall (CMount flags) (Ok OUnit))) v2 /\
    is_dir g atom MM TM v2 ROOT /\ bare v2 /\ (forall i, i <> ROOT -> ask v2 (CStat i) = Err EBADF) /\
    forall o1 o2, exec CVolStat o1 o2 v2 = (Ok (OVStat (NALLOC g - RESV g, ICNT g - 1, s_ro (v_s v2))), v2, []).
Proof.
  intros R S1 HF RM. destruct (reach_sim g OK atom MM TM TD v R) as (a & SA). destruct (step_sim g OK atom MM TM TD _ _ _ _ SA S1) as (a1 & A1 & SA1).
  assert (exists mask, a1 = Umt (Some Fempty) mask) as (mask & ->).
  { inversion A1; subst; try discriminate; try (match goal with H : _ \/ _ |- _ => destruct H as [H|H]; discriminate end); eauto. }
  assert (MN1 : v_mnt v1 = false) by apply SA1.
  destruct (exec (CMount flags) oz oz v1) as [[r v2] t] eqn:EX.
  assert (S2 : step v1 (Some (ECall (CMount flags) r)) v2) by (eapply S_call; eauto; [exact I|unfold room, oz; cbn [fst]; lia]).
  destruct (step_sim g OK atom MM TM TD _ _ _ _ SA1 S2) as (a2 & A2 & SA2).
  assert (E2 : r = Ok OUnit /\ exists ro mask, a2 = Mnt Fempty Fempty ro mask).
  { inversion A2; subst; try discriminate; try congruence; eauto. match goal with H : _ \/ _ |- _ => decompose [or ex] H; discriminate end. }
  destruct E2 as (-> & ro & mask2 & ->). assert (R1 : reach v1) by (eapply reach_step; eauto). assert (R2 : reach v2) by (eapply reach_step; eauto).
  assert (BB : bare v2). { intros k nm i H. apply (at_pos_W g OK atom MM TM TD _ _ _ _ _ SA2) in H. destruct H as (p & sl & E & E'). unfold Fempty in E. rewrite upd_same in E. injection E as <- <-. discriminate. }
  exists v2. split; auto. split; [|split; [auto|split]].
  - apply (is_dir_W g OK atom MM TM TD _ _ _ _ _ SA2). exists 0, (fun _ => None). apply upd_same.
  - intros i N. apply (absent_stat g OK atom MM TM TD _ _ _ _ _ SA2). unfold Fempty. rewrite upd_other; auto.
  - apply (C18_all_deleted v1 (CMount flags) OUnit v2); auto. right. left. eauto.
Qed.

(** * C37 *)
(** At most one slot of an inode number is in use, in the working and in the committed state; the
    number is in use iff stat succeeds; what has been written since the last transaction point is not
    part of the committed state. *)
Theorem C37_slots v i : reach v -> v_mnt v = true -> 2 <= i < 2 + ICNT g ->
  used v (slot g i 0) && used v (slot g i 1) = false /\ used_committed v (slot g i 0) && used_committed v (slot g i 1) = false /\
  (used v (slot g i 0) || used v (slot g i 1) = true <-> ask v (CStat i) <> Err EBADF) /\
  (forall w, w <= 1 -> s_wr (v_s v) (slot g i w) = true -> used_committed v (slot g i w) = false).
Proof.
  intros R MN Hi. destruct (reach_mnt g OK atom MM TM TD v R MN) as (W & C & SA). destruct (Sim_core _ _ _ _ _ SA) as (C0 & D0 & V & pm & HV & HR). pose proof HV as (K & _).
  assert (VI : INODE_IS_VALID g i = true) by (apply (valid_iff g OK); auto). rewrite !slot_eq by lia. destruct (k_slot K i VI) as [K1 K2]. split; auto. split; auto. split.
  - assert (HVV : VOL g C0 D0 false V [] (set_ro false (v_s v))) by (exists pm; auto). pose proof (VOL_lv g OK _ _ _ _ _ _ i HVV) as LV. unfold lv in LV. rewrite VI in LV. cbn [andb] in LV.
    change (cur (set_ro false (v_s v))) with (used v) in LV. rewrite LV. specialize (HR i).
    rewrite (absent_stat g OK atom MM TM TD _ _ _ _ _ SA). destruct (V i), (W i) as [[]|]; cbn in HR; try tauto; split; intros; congruence.
  - intros w Hw H. rewrite slot_eq in * by lia. apply (k_wr K). auto.
Qed.
(** statvfs counts the inode numbers for which stat fails. *)
Theorem C37_counter v o1 o2 : reach v -> v_mnt v = true -> exists nb, exec CVolStat o1 o2 v =
  (Ok (OVStat (nb, count (fun i => match ask v (CStat i) with Err EBADF => true | _ => false end) 2 (2 + ICNT g), s_ro (v_s v))), v, []).
Proof.
  intros R MN. destruct (reach_mnt g OK atom MM TM TD v R MN) as (W & C & SA). eexists. cbn [FsVolume.exec]. unfold omap, pbind, RedCoreVolStat, pret. rewrite MN. cbn [negb].
  destruct SA as (HV & B & D). rewrite (freei_count g OK atom MM TM TD v W C HV). assert (SA : Sim v (Mnt W C (s_ro (v_s v)) (v_mask v))) by (split; auto). do 4 f_equal.
  f_equal. f_equal. unfold free_inodes, ROOT. apply count_ext. intros i Hi. pose proof (absent_stat g OK atom MM TM TD _ _ _ _ _ SA i) as A. pose proof (ask_ok g OK atom MM TM TD _ _ _ _ _ (CStat i) SA eq_refl I) as Q. cbn in Q.
  destruct (ask v (CStat i)) as [x|e]; destruct (W i) as [w|] eqn:Wi; auto.
  - exfalso. destruct A as [_ A]. specialize (A eq_refl). discriminate.
  - destruct Q as [_ Q]. congruence.
  - destruct A as [_ A]. specialize (A eq_refl). injection A as ->. auto.
Qed.
(** A new inode gets a number that was not in use. *)
Theorem C37_create v p nm dir i v' : reach v -> step v (Some (ECall (CCreate p nm dir) (Ok (ONum i)))) v' ->
  2 <= i < 2 + ICNT g /\ ask v (CStat i) = Err EBADF /\ ask v' (CStat i) <> Err EBADF.
Proof.
  intros R S. destruct (ok_sim g OK atom MM TM TD v _ _ v' R S eq_refl) as (W & W' & C & C' & mask & SA & SA' & O). destruct O as (j & X & Hj & _ & _ & O). injection X as <-.
  split; [exact Hj|]. split; [apply (absent_stat g OK atom MM TM TD _ _ _ _ _ SA); apply O|]. rewrite (absent_stat g OK atom MM TM TD _ _ _ _ _ SA').
  destruct (op_create_entry _ _ _ _ _ _ (Sim_WF g OK atom MM TM TD _ _ _ _ _ SA) O) as (k & _ & _ & _ & _ & _ & Ni & _). auto.
Qed.
End P.
