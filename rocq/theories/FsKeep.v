(** Between two transaction points: the committed blocks and the current metaroot are not touched. *)
From Verif Require Import Base Count FsState FsImap FsInode FsData FsTree FsImapProof FsInv FsStep FsBranch FsRead FsWrite FsVol FsVol2 FsVol3 FsVol4 FsWp FsDir FsDirP FsCore FsWr FsRo FsSpec FsSpecP FsCoreP FsCoreP2 FsCoreP3 FsCoreP4 FsCoreP5 FsMach FsVolume FsVolumeP FsReach.
Ltac Zify.zify_post_hook ::= idtac.

(** On the device [d], the committed state of [v] (its blocks and the current metaroot block) is as in [v]. *)
Definition kept (v : vol) (d : dev) : Prop :=
  (forall b, m_bits (s_c (v_s v)) b = true -> d_blk d b = d_blk (v_d v) b) /\
  d_mr d (negb (v_cur v)) = d_mr (v_d v) (negb (v_cur v)).
Lemma kept_refl v : kept v (v_d v). Proof. split; auto. Qed.
Lemma kept_trans v v' d : kept v (v_d v') -> s_c (v_s v') = s_c (v_s v) -> v_cur v' = v_cur v -> kept v' d -> kept v d.
Proof. intros (A & B) E1 E2 (C & D). rewrite E1, E2 in *. split; [|congruence]. intros b Hb. rewrite C by auto. auto. Qed.

Section Keep.
Variable g : cfg.
Hypothesis OK : cfg_ok g.
Variable atom : bool.
Variable MM TM TD : N.
Set Default Proof Using "All".
Notation exec := (exec g atom MM TM).
Notation step := (step g atom MM TM TD).
Notation steps := (steps g atom MM TM TD).
Notation VIx := (VIx g atom).

(** The modifying calls have a common form. *)
Lemma mod_form c : modifies c = true -> legal c ->
  exists A (m : M st A) (f : A -> out) (bad : Prop), (forall o1 o2, exec c o1 o2 = omap f (autocommit (evbit c) m o1 o2)) /\
    OPS g bad m (fun x F F' => op_ok (NMAX g) (INODE_SIZE_MAX g) (ICNT g) c (f x) F F') (op_err (NMAX g) (INODE_SIZE_MAX g) (ICNT g) c) /\ ~ bad.
Proof.
  intros MC LG. destruct c; try discriminate MC.
  - exists _, (CoreCreate g p nm dir), ONum, False. split; [reflexivity|]. split; [apply (ops_create g OK p nm dir LG)|tauto].
  - exists _, (CoreLink g p nm i), (fun _ => OUnit), False. split; [reflexivity|]. split; [apply (ops_link g OK p nm i LG)|tauto].
  - exists _, (CoreUnlink g p nm), (fun _ => OUnit), False. split; [reflexivity|]. split; [apply (ops_unlink g OK p nm LG)|tauto].
  - destruct LG as [L1 L2]. exists _, (CoreRename g sp sn dp dn), (fun _ => OUnit), False. split; [reflexivity|]. split; [apply (ops_rename g OK sp sn dp dn L1 L2)|tauto].
  - exists _, (CoreFileWrite g i start len src), ONum, False. split; [reflexivity|]. split; [apply (ops_write g OK i start len src)|tauto].
  - exists _, (CoreFileTruncate g i size), (fun _ => OUnit), False. split; [reflexivity|]. split; [apply (ops_truncate g OK i size)|tauto].
Qed.

Lemma VIx_bnd C0 D0 v W C : VIx C0 D0 v W C -> forall i q m, d_mr (v_d v) i = MOk q m -> q < v_seq v.
Proof using.
  intros X i q m E. destruct (x_q _ _ _ _ _ _ _ X) as (q0 & (S1 & S2 & S3 & S4) & Q).
  destruct (Bool.bool_dec i (negb (v_cur v))) as [->|Ni]; [congruence|].
  replace i with (negb (negb (v_cur v))) in E by (destruct i, (v_cur v); cbn in *; congruence). rewrite E in S3. cbn in S3. lia.
Qed.
Lemma VIx_c C0 D0 v W C : VIx C0 D0 v W C -> s_c (v_s v) = C0.
Proof. intros X. destruct (FSV_Idle g OK _ _ _ _ (x_w _ _ _ _ _ _ _ X)) as [pm K]. apply (k_c K). Qed.
Lemma VIx_kept C0 D0 v W C d : VIx C0 D0 v W C -> mayhap (s_wr (v_s v)) (v_d v) d -> kept v d.
Proof.
  intros X (H1 & H2 & _). split; [|auto]. intros b Hb. rewrite (VIx_c _ _ _ _ _ X) in Hb. apply H1.
  destruct (s_wr (v_s v) b) eqn:E; auto. rewrite (VIx_wr g OK atom _ _ _ _ _ X b E) in Hb. discriminate.
Qed.

Lemma core_x {A} bad (m : M st A) R E C0 D0 v W C : OPS g bad m R E -> VIx C0 D0 v W C -> s_ro (v_s v) = false ->
  exists r v', core m v = (r, v', [mayhap (s_wr (v_s v')) (v_d v)]) /\ v' = vset_s (v_s v') v /\ wle (v_s v) (v_s v') /\
    (bad /\ s_ro (v_s v') = true \/ s_ro (v_s v') = false /\ exists W', VIx C0 D0 v' W' C /\ match r with Ok a => R a W W' | Err e => E W e /\ W' = W end).
Proof.
  intros (WL & HO) X RO. pose proof (x_w _ _ _ _ _ _ _ X) as FW. rewrite (set_ro_id false _ RO) in FW.
  specialize (HO C0 D0 W (v_s v) FW (x_WF _ _ _ _ _ _ _ X)). specialize (WL (v_s v)). cbn in WL. unfold core.
  destruct (m (v_s v)) as [r s'] eqn:RUN. cbn [snd] in WL. exists r, (vset_s s' v). cbn [vset_s v_s]. split; auto. split; auto. split; auto.
  assert (GO : forall W', WF W' -> FSV g C0 D0 W' s' -> VIx C0 D0 (vset_s s' v) W' C /\ s_ro s' = false).
  { intros W' HW FW'. destruct (FSV_Idle g OK _ _ _ _ FW') as [pm K]. pose proof (k_ro K) as RO'.
    split; auto. apply (VIx_vs g OK atom C0 D0 v W C s' W' X WL); auto; now rewrite (set_ro_id false _ RO'). }
  destruct r as [a|e].
  - destruct HO as (F' & HR & HW & HF). right. destruct (GO F' HW HF). eauto.
  - destruct HO as [?|(HE & HF)]; auto. right. destruct (GO W (x_WF _ _ _ _ _ _ _ X) HF). eauto.
Qed.

Lemma transact_x o C0 D0 v W C : VIx C0 D0 v W C -> v_seq v + fst o < UINT64_MAX ->
  exists v' t, RedVolTransact o v = (Ok tt, v', t) /\
   (v' = v /\ t = [] \/ exists q m, d_mr (v_d v') (v_cur v) = MOk q m /\ v_seq v <= q).
Proof using.
  intros X RM. unfold RedVolTransact. destruct (s_br (v_s v)); cbn [negb]; [|eauto 7].
  destruct (N.leb_spec UINT64_MAX (v_seq v + fst o)); [lia|]. eexists. eexists. split; [reflexivity|]. right. cbn [v_d dflush dwmr d_mr].
  rewrite eqb_reflx. eexists. eexists. split; [reflexivity|]. lia.
Qed.
Lemma transact_kept o C0 D0 v W C r v' t : VIx C0 D0 v W C -> RedVolTransact o v = (r, v', t) -> forall sn d, In sn t -> sn d -> kept v d.
Proof.
  intros X. unfold RedVolTransact. destruct (s_br (v_s v)); cbn [negb]; [|intros E; injection E as <- <- <-; intros ? ? []].
  assert (NW : forall b, m_bits (s_c (v_s v)) b = true -> s_wr (v_s v) b = false).
  { intros b Hb. rewrite (VIx_c _ _ _ _ _ X) in Hb. destruct (s_wr (v_s v) b) eqn:E; auto. rewrite (VIx_wr g OK atom _ _ _ _ _ X b E) in Hb. discriminate. }
  destruct (UINT64_MAX <=? v_seq v + fst o); intros E; injection E as <- <- <-; intros sn d IN HS; cbn [In] in IN.
  - destruct IN as [<-|[]]. eapply VIx_kept; eauto.
  - destruct IN as [<-|[<-|[<-|[<-|[<-|[]]]]]]; [eapply VIx_kept; eauto| | | |]; subst d; (split; [intros b Hb; cbn; now rewrite (NW b Hb)|cbn]); auto;
      destruct (v_cur v); reflexivity.
Qed.

Lemma mayhap_mono wr wr' d d' : (forall b, wr b = true -> wr' b = true) -> mayhap wr d d' -> mayhap wr' d d'.
Proof using. intros L (H1 & H). split; auto. intros b Hb. apply H1. destruct (wr b) eqn:E; auto. rewrite (L _ E) in Hb. discriminate. Qed.

(** A modifying call: either no metaroot was written and the committed state is as before, or a newer one was written. *)
Lemma autocommit_x {A} bad (m : M st A) R E ev o1 o2 C0 D0 v W C : OPS g bad m R E -> VIx C0 D0 v W C -> s_ro (v_s v) = false ->
  v_seq v + fst o1 + fst o2 + 2 <= UINT64_MAX ->
  exists r v' t, autocommit ev m o1 o2 v = (r, v', t) /\
    (bad /\ s_ro (v_s v') = true \/
     s_ro (v_s v') = false /\ (exists W', VIx C0 D0 v' W' C) /\ v_d v' = v_d v /\ v_cur v' = v_cur v /\
       (forall sn d, In sn t -> sn d -> mayhap (s_wr (v_s v')) (v_d v) d) \/
     exists i q mr, d_mr (v_d v') i = MOk q mr /\ v_seq v <= q).
Proof.
  intros HO X RO RM. unfold autocommit, guard. rewrite (x_mnt _ _ _ _ _ _ _ X), RO. cbn [negb].
  set (part1 := pcatch (core m) _).
  assert (P1 : exists r v1 t1, part1 v = (r, v1, t1) /\
     (bad /\ s_ro (v_s v1) = true \/
      s_ro (v_s v1) = false /\ (exists W', VIx C0 D0 v1 W' C) /\ v_d v1 = v_d v /\ v_cur v1 = v_cur v /\ v_seq v1 = v_seq v /\
        (forall sn d, In sn t1 -> sn d -> mayhap (s_wr (v_s v1)) (v_d v) d) \/
      v_seq v <= v_seq v1 <= v_seq v + fst o1 + 1 /\ (exists C1 D1 W1 Cm, VIx C1 D1 v1 W1 Cm) /\ exists i q mr, d_mr (v_d v1) i = MOk q mr /\ v_seq v <= q)).
  { unfold part1, pcatch. destruct (core_x bad m R E C0 D0 v W C HO X RO) as (r & v1 & R1 & EV & WL & Y). rewrite R1.
    assert (EV' : v_d v1 = v_d v /\ v_cur v1 = v_cur v /\ v_seq v1 = v_seq v /\ v_mnt v1 = v_mnt v) by (rewrite EV; auto). destruct EV' as (EV1 & EV2 & EV3 & EV4).
    assert (T1 : forall sn d, In sn [mayhap (s_wr (v_s v1)) (v_d v)] -> sn d -> mayhap (s_wr (v_s v1)) (v_d v) d) by (intros sn d [<-|[]]; auto).
    destruct Y as [(BAD & RB)|(RO1 & W' & X1 & HR)].
    { match goal with |- exists r v1 t1, match ?K with _ => _ end = _ /\ _ => destruct K as [[r2 v2] t2] eqn:KK end.
      exists r2, v2, ([mayhap (s_wr (v_s v1)) (v_d v)] ++ t2). split; auto. left. split; auto.
      destruct r as [a|e]; [injection KK as <- <- <-; auto|]. destruct e; try (injection KK as <- <- <-; auto; fail).
      destruct (has (v_mask v1) T_VOLFULL && (0 <? s_afree (v_s v1))); [|injection KK as <- <- <-; auto].
      unfold pbind in KK. destruct (RedVolTransact o1 v1) as [[r3 v3] t3] eqn:TT. pose proof (transact_ro _ _ _ _ _ TT RB) as RO3.
      destruct r3 as [[]|]; [|injection KK as <- <- <-; auto].
      destruct (core m v3) as [[r4 v4] t4] eqn:CC. injection KK as <- <- <-. destruct HO as [WL' _]. eapply core_ro; eauto. }
    assert (DONE : exists r' v' t1, (r, v1, [mayhap (s_wr (v_s v1)) (v_d v)] ++ []) = (r', v', t1) /\
     (bad /\ s_ro (v_s v') = true \/
      s_ro (v_s v') = false /\ (exists W', VIx C0 D0 v' W' C) /\ v_d v' = v_d v /\ v_cur v' = v_cur v /\ v_seq v' = v_seq v /\
        (forall sn d, In sn t1 -> sn d -> mayhap (s_wr (v_s v')) (v_d v) d) \/
      v_seq v <= v_seq v' <= v_seq v + fst o1 + 1 /\ (exists C1 D1 W1 Cm, VIx C1 D1 v' W1 Cm) /\ exists i q mr, d_mr (v_d v') i = MOk q mr /\ v_seq v <= q)).
    { eexists. eexists. eexists. split; [reflexivity|]. right. left. rewrite app_nil_r. eauto 9. }
    destruct r as [a|e]; [exact DONE|].
    destruct (errno_eq_dec e ENOSPC) as [->|Ne]; [|destruct e; try exact DONE; congruence].
    destruct (has (v_mask v1) T_VOLFULL && (0 <? s_afree (v_s v1))); [|exact DONE]. clear DONE.
    unfold pbind. destruct (transact_x o1 C0 D0 v1 W' C X1 ltac:(lia)) as (v2 & t2 & R2 & Z).
    destruct (transact_ok g OK atom v1 W' C o1 (fun _ => True) ltac:(exists C0, D0; auto) ltac:(lia) I I) as (v2' & t2' & R2' & (C1 & D1 & X2) & RO2 & _ & _ & SQ2 & _).
    rewrite R2 in R2'. injection R2' as <- <-. rewrite R2.
    destruct Z as [(-> & ->)|(q & mr & EQ & LQ)].
    - destruct (core_x bad m R E C0 D0 v1 W' C HO X1 RO1) as (r3 & v3 & R3 & EV3' & WL3 & Y3). rewrite R3.
      eexists. eexists. eexists. split; [reflexivity|]. destruct Y3 as [Y3|(RO3 & W3 & X3 & _)]; auto. right. left.
      split; auto. split; [eauto|]. rewrite EV3'. cbn [v_d v_cur v_seq vset_s v_s]. rewrite EV1, EV2, EV3. split; [auto|]. split; [auto|]. split; [auto|].
      intros sn d IN Hd. cbn [app In] in IN. destruct IN as [<-|[<-|[]]]; auto. eapply mayhap_mono; [|exact Hd]. apply WL3.
    - assert (RO2' : s_ro (v_s v2) = false) by congruence.
      destruct (core_x bad m R E C1 D1 v2 W' W' HO X2 RO2') as (r3 & v3 & R3 & EV3' & WL3 & Y3). rewrite R3.
      eexists. eexists. eexists. split; [reflexivity|]. destruct Y3 as [Y3|(RO3 & W3 & X3 & _)]; auto. right. right.
      assert (SQ : v_seq v1 <= v_seq v2).
      { pose proof (VIx_bnd _ _ _ _ _ X2 _ _ _ EQ). lia. }
      assert (E3 : v_seq v3 = v_seq v2 /\ v_d v3 = v_d v2) by (rewrite EV3'; auto). destruct E3 as [E3 E4]. rewrite E3, E4. split; [lia|]. split; [eauto 6|]. exists (v_cur v1), q, mr. split; auto. lia. }
  destruct P1 as (r & v1 & t1 & R1 & Y). unfold pbind at 1. rewrite R1. clearbody part1.
  destruct r as [a|e].
  2:{ eexists. eexists. eexists. split; [reflexivity|]. destruct Y as [Y|[(Y1 & Y2 & Y3 & Y4 & Y5 & Y6)|(_ & _ & Y)]]; auto. right. left. auto. }
  destruct (has (v_mask v1) ev).
  2:{ unfold pret. eexists. eexists. eexists. split; [reflexivity|]. rewrite app_nil_r. destruct Y as [Y|[(Y1 & Y2 & Y3 & Y4 & Y5 & Y6)|(_ & _ & Y)]]; auto. right. left. auto. }
  unfold pbind. destruct Y as [(BAD & RB)|[(Y1 & (W' & X1) & Y3 & Y4 & Y5 & Y6)|(SQ & (C1 & D1 & W1 & Cm & X1) & i & q & mr & EQ & LQ)]].
  - destruct (RedVolTransact o2 v1) as [[r3 v3] t3] eqn:TT. pose proof (transact_ro _ _ _ _ _ TT RB) as RO3.
    destruct r3 as [[]|]; unfold pret; eexists; eexists; eexists; (split; [reflexivity|]); auto.
  - destruct (transact_x o2 C0 D0 v1 W' C X1 ltac:(lia)) as (v2 & t2 & R2 & Z). rewrite R2. unfold pret. eexists. eexists. eexists. split; [reflexivity|].
    destruct Z as [(-> & ->)|(q & mr & EQ & LQ)].
    + right. left. rewrite !app_nil_r. eauto 9.
    + right. right. exists (v_cur v1), q, mr. split; auto. lia.
  - destruct (transact_x o2 C1 D1 v1 W1 Cm X1 ltac:(lia)) as (v2 & t2 & R2 & Z). rewrite R2. unfold pret. eexists. eexists. eexists. split; [reflexivity|].
    right. right. destruct Z as [(-> & ->)|(q' & mr' & EQ' & LQ')]; eauto.
    exists (v_cur v1), q', mr'. split; auto. lia.
Qed.

(** Rollback keeps the committed metaroot. *)
Lemma rollback_x C0 D0 v W C : VIx C0 D0 v W C -> s_ro (v_s v) = false ->
  exists v', RedVolRollback atom v = (Ok tt, v', []) /\ VIx C0 (if s_br (v_s v) then d_blk (v_d v) else D0) v' C C /\ s_ro (v_s v') = false /\ v_d v' = v_d v /\ v_cur v' = v_cur v /\
    s_w (v_s v') = C0.
Proof.
  intros X RO. pose proof X as [X1 (q & S & Q) (mq & M1 & M2 & MQ) X4 X5 X6 X7 X8 X9 X10].
  unfold RedVolRollback. destruct (s_br (v_s v)) eqn:B; cbn [negb].
  - destruct (rollback_ok g OK atom v W C ltac:(exists C0, D0; auto) RO) as (v' & R & (C1 & D1 & Y) & RO' & MK & DV).
    unfold RedVolRollback in R. rewrite B in R. cbn [negb] in R. unfold pbind, RedVolMountMaster in *. rewrite M1 in *. unfold RedVolMountMetaroot in *. cbn [vset_seq v_d v_seq v_s] in *.
    pose proof S as (S1 & _ & S3 & _). rewrite (choose_older _ _ _ _ _ S1 S3) in *.
    destruct ((if mq <? q then q else mq) =? UINT64_MAX); [discriminate|]. rewrite negb_involutive in *.
    cbn [app] in R. injection R as <-. eexists. split; [reflexivity|]. cbn [v_s v_d v_cur vset_s set_br s_ro s_w] in *.
    split; [|auto]. destruct Y as [Y1 Y2 Y3 Y4 Y5 Y6 Y7 Y8 Y9 Y10]. cbn [v_s v_d v_cur vset_s set_br s_ro s_w v_mnt v_seq] in *.
    constructor; cbn [v_s v_d v_cur vset_s set_br s_ro s_w v_mnt v_seq]; auto.
    + exists q. split; auto. destruct (N.ltb_spec mq q); lia.
    + change (FSV g C0 (d_blk (v_d v)) C (fresh false C0 (d_blk (v_d v)))). apply (FSV_fresh g OK C0 D0 C false false); auto. intros b Hb. apply X9; auto.
    + apply (FSV_fresh g OK C0 D0 C false false); auto. intros b Hb. apply X9; auto.
    + intros b Hb. split; auto. apply X9; auto.
  - exists v. split; auto. split; [|split; [auto|split; [auto|split; [auto|]]]].
    + constructor; auto; [exists q; auto|exists mq; auto|]. eapply (FSV_clean' g OK C0 D0 C W); eauto.
    + destruct (FSV_Idle g OK _ _ _ _ X5) as [pm K]. destruct (k_br K B) as (E & _). rewrite (k_c K) in E. exact E.
Qed.

Lemma mounted_t {A} (m : M st A) f v r v' t : v_mnt v = true -> omap f (mounted m) v = (r, v', t) -> t = [mayhap (s_wr (v_s v')) (v_d v)].
Proof using.
  intros MN. unfold omap, mounted, pbind, pret, core. rewrite MN. cbn [negb]. destruct (m (v_s v)) as [[a|e] s']; intros E; injection E as <- <- <-; reflexivity.
Qed.
Lemma read_t c o1 o2 v r v' t : reads c = true -> v_mnt v = true -> exec c o1 o2 v = (r, v', t) -> t = [mayhap (s_wr (v_s v')) (v_d v)].
Proof using. intros RC MN. destruct c; try discriminate RC; cbn [FsVolume.exec]; apply mounted_t; auto. Qed.

(** A call during which no metaroot block is written. *)
Lemma call_nc C0 D0 v W C c o1 o2 r v' t : VIx C0 D0 v W C -> legal c -> allowed v c -> room v o1 o2 -> exec c o1 o2 v = (r, v', t) ->
  v_mnt v' = true -> (forall i, d_mr (v_d v') i = d_mr (v_d v) i) ->
  (exists D1 W', VIx C0 D1 v' W' C /\ forall b, m_bits C0 b = true -> D1 b = D0 b) /\
  v_cur v' = v_cur v /\ s_ro (v_s v') = s_ro (v_s v) /\ v_d v' = v_d v /\ forall sn d, In sn t -> sn d -> kept v d.
Proof.
  intros X LG AL RM EX MN' MR. pose proof (x_mnt _ _ _ _ _ _ _ X) as MN.
  assert (SM : Sim g atom v (Mnt W C (s_ro (v_s v)) (v_mask v))) by (split; [exists C0, D0; auto|auto]).
  assert (SAME : v' = v -> t = [] \/ t = [mayhap (s_wr (v_s v')) (v_d v)] -> (exists D1 W', VIx C0 D1 v' W' C /\ forall b, m_bits C0 b = true -> D1 b = D0 b) /\
     v_cur v' = v_cur v /\ s_ro (v_s v') = s_ro (v_s v) /\ v_d v' = v_d v /\ forall sn d, In sn t -> sn d -> kept v d).
  { intros -> TE. split; [eauto|]. split; auto. split; auto. split; auto. intros sn d IN HS. destruct TE as [->| ->]; [destruct IN|]. destruct IN as [<-|[]]. eapply VIx_kept; eauto. }
  destruct (modifies c) eqn:MC.
  { destruct (mod_form c MC LG) as (A & m & f & bad & EQ & HO & HB). rewrite EQ in EX. destruct (s_ro (v_s v)) eqn:RO.
    - unfold omap, autocommit, pbind, guard in EX. rewrite MN, RO in EX. cbn [negb] in EX. injection EX as <- <- <-. apply SAME; auto.
    - unfold room in RM. destruct (autocommit_x bad m _ _ (evbit c) o1 o2 C0 D0 v W C HO X RO ltac:(lia)) as (r0 & v0 & t0 & R0 & Y).
      unfold omap, pbind, pret in EX. rewrite R0 in EX.
      assert (EQ' : v' = v0 /\ t = t0). { destruct r0; injection EX as <- <- <-; rewrite ?app_nil_r; auto. } destruct EQ' as [-> ->].
      destruct Y as [(BAD & RB)|[(RO' & (W' & X') & Y3 & Y4 & Y5)|(i & q & mr & EQ' & LQ)]].
      + destruct (HB BAD).
      + split; [eauto|]. split; auto. split; auto. split; auto. intros sn d IN HS. eapply (kept_trans v v0); auto.
        * rewrite Y3. apply kept_refl.
        * rewrite (VIx_c _ _ _ _ _ X), (VIx_c _ _ _ _ _ X'). auto.
        * eapply VIx_kept; eauto. rewrite Y3. eauto.
      + rewrite MR in EQ'. pose proof (VIx_bnd _ _ _ _ _ X _ _ _ EQ'). lia. }
  destruct (reads c) eqn:RC.
  { destruct (read_call g OK atom MM TM TD c o1 o2 v W C _ _ RC LG SM) as (r0 & t0 & R0 & _). pose proof (read_t _ _ _ _ _ _ _ RC MN EX) as TE.
    rewrite EX in R0. injection R0 as <- -> <-. apply SAME; auto. }
  destruct c; try discriminate; cbn [FsVolume.exec] in EX.
  - unfold ounit, omap, RedCoreVolTransact, pbind, guard, pret in EX. rewrite MN in EX. cbn [negb] in EX. destruct (s_ro (v_s v)) eqn:RO.
    { injection EX as <- <- <-. apply SAME; auto. }
    destruct (transact_x o1 C0 D0 v W C X ltac:(unfold room in RM; lia)) as (v0 & t0 & R0 & Z). rewrite R0 in EX. injection EX as <- <- <-.
    destruct Z as [(-> & ->)|(q & mr & EQ & LQ)]; [apply SAME; auto|]. rewrite MR in EQ. pose proof (VIx_bnd _ _ _ _ _ X _ _ _ EQ). lia.
  - unfold ounit, omap, RedCoreVolRollback, pbind, guard, pret in EX. rewrite MN in EX. cbn [negb] in EX. destruct (s_ro (v_s v)) eqn:RO.
    { injection EX as <- <- <-. apply SAME; auto. }
    destruct (rollback_x C0 D0 v W C X RO) as (v0 & R0 & X0 & RO0 & DV & CU & _). rewrite R0 in EX. injection EX as <- <- <-.
    split; [exists (if s_br (v_s v) then d_blk (v_d v) else D0), C; split; auto; intros b Hb; destruct (s_br (v_s v)); auto; now apply X|].
    split; auto. split; [congruence|]. split; auto. intros sn d [].
  - unfold ounit, omap, RedCoreTransMaskSet, pbind, pret in EX. rewrite MN in EX. cbn [negb orb] in EX.
    destruct (negb (N.land m TM =? m)); [injection EX as <- <- <-; apply SAME; auto|].
    destruct (s_ro (v_s v)) eqn:RO; injection EX as <- <- <-; [apply SAME; auto|].
    split; [exists D0, W; split; auto; destruct X; constructor; auto|]. cbn. split; auto. split; auto. split; auto. intros sn d [].
  - unfold omap, RedCoreTransMaskGet, pbind, pret in EX. rewrite MN in EX. cbn [negb] in EX. injection EX as <- <- <-. apply SAME; auto.
  - unfold omap, RedCoreVolStat, pbind, pret in EX. rewrite MN in EX. cbn [negb] in EX. injection EX as <- <- <-. apply SAME; auto.
  - cbn in AL. congruence.
  - destruct (unmount_ok g OK atom v W C o1 ltac:(exists C0, D0; auto) ltac:(unfold room in RM; lia)) as (v0 & t0 & R0 & _ & (U1 & _) & _).
    unfold ounit, omap, pbind, pret in EX. rewrite R0 in EX. injection EX as <- <- <-. congruence.
  - unfold ounit, omap, pbind, RedVolFormat, RedVolFormatWith in EX. rewrite MN in EX. injection EX as <- <- <-. apply SAME; auto.
Qed.

(** Calls between transaction points: the volume stays mounted and no metaroot block is written
    (writes of dirty buffers in between). *)
Inductive no_commit : vol -> list event -> vol -> Prop :=
| NC_nil v : no_commit v [] v
| NC_call v c r v1 t v2 : step v (Some (ECall c r)) v1 -> v_mnt v1 = true -> (forall i, d_mr (v_d v1) i = d_mr (v_d v) i) ->
    no_commit v1 t v2 -> no_commit v (ECall c r :: t) v2
| NC_back v v1 t v2 : step v None v1 -> no_commit v1 t v2 -> no_commit v t v2.

Lemma no_commit_steps v t v' : no_commit v t v' -> steps v t v'.
Proof using. induction 1; [constructor|eapply Ss_cons|eapply Ss_back]; eauto. Qed.

Lemma back_x C0 D0 v W C d seq : VIx C0 D0 v W C -> mayhap (s_wr (v_s v)) (v_d v) d -> v_seq v <= seq <= UINT64_MAX -> VIx C0 D0 (vset_seq seq (vset_d d v)) W C.
Proof.
  intros X (H1 & H2 & H3 & H4 & H5) SQ. pose proof (VIx_wr g OK atom _ _ _ _ _ X) as NW. destruct X as [X1 (q & (S1 & S2 & S3 & S4) & Q) (mq & M1 & M2 & MQ) X4 X5 X6 X7 X8 X9 X10].
  constructor; cbn [v_mnt v_d v_cur v_seq v_s vset_seq vset_d]; auto; try lia.
  - exists q. split; [|lia]. unfold SLOTS. now rewrite !H2, !H3.
  - exists mq. split; [congruence|]. split; [congruence|lia].
  - intros b Hb. destruct (H1 b) as [E1 E2]. { destruct (s_wr (v_s v) b) eqn:E; auto. rewrite NW in Hb; auto. } rewrite E1, E2. auto.
  - intros b Hb. destruct (H1 b Hb) as [E1 _]. rewrite E1. auto.
Qed.

Lemma no_commit_x v1 t v2 : no_commit v1 t v2 -> forall C0 D0 W C, VIx C0 D0 v1 W C ->
  (exists D1 W', VIx C0 D1 v2 W' C /\ forall b, m_bits C0 b = true -> D1 b = D0 b) /\ v_cur v2 = v_cur v1 /\ s_ro (v_s v2) = s_ro (v_s v1) /\ kept v1 (v_d v2).
Proof.
  induction 1 as [v|v c r v1 t v2 S1 MN MR _ IH|v v1 t v2 S1 _ IH]; intros C0 D0 W C X.
  - split; [eauto|]. split; auto. split; auto. apply kept_refl.
  - inversion S1; subst. destruct (call_nc C0 D0 v W C c o1 o2 r v1 t0) as ((D1 & W' & X' & HD) & E1 & E2 & E3 & _); auto.
    destruct (IH C0 D1 W' C X') as ((D2 & W2 & X2 & HD2) & F1 & F2 & F3).
    split; [exists D2, W2; split; auto; intros b Hb; rewrite HD2, HD; auto|]. split; [congruence|]. split; [congruence|].
    apply (kept_trans v v1); auto; [rewrite E3; apply kept_refl|]. rewrite (VIx_c _ _ _ _ _ X), (VIx_c _ _ _ _ _ X'). auto.
  - inversion S1; subst. assert (X' : VIx C0 D0 (vset_seq seq (vset_d d v)) W C) by (apply back_x; auto).
    destruct (IH C0 D0 W C X') as (A & F1 & F2 & F3). split; auto. split; auto. split; auto.
    apply (kept_trans v (vset_seq seq (vset_d d v))); auto. eapply VIx_kept; eauto.
Qed.

(** A modifying call without the transaction that a full volume causes: nothing that was committed before is touched. *)
Lemma autocommit_kept {A} bad (m : M st A) R E ev o1 o2 C0 D0 v W C r v' t : OPS g bad m R E -> VIx C0 D0 v W C -> s_ro (v_s v) = false ->
  has (v_mask v) T_VOLFULL = false -> autocommit ev m o1 o2 v = (r, v', t) -> (bad -> s_ro (v_s v') = false) ->
  forall sn d, In sn t -> sn d -> kept v d.
Proof.
  intros HO X RO VF EX NB. unfold autocommit, guard in EX. rewrite (x_mnt _ _ _ _ _ _ _ X), RO in EX. cbn [negb] in EX.
  unfold pbind at 1, pcatch in EX. destruct (core_x bad m R E C0 D0 v W C HO X RO) as (r1 & v1 & R1 & EV & WL & Y). rewrite R1 in EX.
  assert (EV' : v_d v1 = v_d v /\ v_cur v1 = v_cur v /\ v_mask v1 = v_mask v) by (rewrite EV; auto). destruct EV' as (EV1 & EV2 & EV3).
  assert (P1 : match r1 with Ok a => pret a | Err ENOSPC => fun v2 => if has (v_mask v2) T_VOLFULL && (0 <? s_afree (v_s v2)) then (RedVolTransact o1 ~;; core m)%pv v2 else pfail ENOSPC v2 | Err e => pfail e end v1 = (r1, v1, [])).
  { destruct r1 as [a|[]]; try reflexivity. rewrite EV3, VF. reflexivity. }
  assert (EX' : match r1 with Ok a => (let '(r2, v2, t2) := (if has (v_mask v1) ev then (RedVolTransact o2 ~;; pret a)%pv v1 else pret a v1) in (r2, v2, [mayhap (s_wr (v_s v1)) (v_d v)] ++ t2)) | Err e => (Err e, v1, [mayhap (s_wr (v_s v1)) (v_d v)]) end = (r, v', t)).
  { destruct r1 as [a|e].
    - rewrite <- EX. reflexivity.
    - rewrite <- EX. destruct e; try reflexivity. rewrite EV3, VF. reflexivity. }
  clear EX P1.
  assert (K1 : s_ro (v_s v1) = false -> (exists W', VIx C0 D0 v1 W' C) /\ forall d, mayhap (s_wr (v_s v1)) (v_d v) d -> kept v d).
  { intros RO1. destruct Y as [(_ & RB)|(_ & W' & X1 & _)]; [congruence|]. split; [eauto|]. intros d Hd. apply (kept_trans v v1); auto.
    - rewrite EV1. apply kept_refl.
    - apply WL.
    - eapply VIx_kept; eauto. now rewrite EV1. }
  assert (R0 : s_ro (v_s v1) = false).
  { destruct Y as [(BAD & RB)|(RO1 & _)]; auto. specialize (NB BAD). destruct r1 as [a|e]; [|injection EX' as <- <- <-; auto].
    destruct (has (v_mask v1) ev); [|injection EX' as <- <- <-; auto]. unfold pbind in EX'. destruct (RedVolTransact o2 v1) as [[r2 v2] t2] eqn:TT.
    pose proof (transact_ro _ _ _ _ _ TT RB) as RO2. destruct r2; injection EX' as <- <- <-; congruence. }
  destruct (K1 R0) as ((W' & X1) & KD). intros sn d IN HS.
  destruct r1 as [a|e]; [|injection EX' as <- <- <-; destruct IN as [<-|[]]; auto].
  destruct (has (v_mask v1) ev); [|injection EX' as <- <- <-; destruct IN as [<-|[]]; auto].
  unfold pbind in EX'. destruct (RedVolTransact o2 v1) as [[r2 v2] t2] eqn:TT.
  assert (TE : exists t3, t = [mayhap (s_wr (v_s v1)) (v_d v)] ++ t3 /\ (forall x, In x t3 -> In x t2)).
  { destruct r2; injection EX' as <- <- <-; eexists; split; try reflexivity; intros x Hx; auto. now rewrite app_nil_r in Hx. }
  destruct TE as (t3 & -> & HT). apply in_app_or in IN. destruct IN as [[<-|[]]|IN]; auto.
  apply (kept_trans v v1); auto.
  - rewrite EV1. apply kept_refl.
  - apply WL.
  - eapply (transact_kept o2 C0 D0 v1 W' C); eauto.
Qed.
End Keep.
