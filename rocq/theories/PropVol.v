(** Transaction points reach the media (C10), automatic transaction points (C34), read-only volumes (C23). *)
From Verif Require Import Base Count FsState FsImap FsInode FsData FsTree FsImapProof FsInv FsStep FsBranch FsRead FsWrite FsVol FsVol2 FsVol3 FsVol4 FsWp FsDir FsDirP FsCore FsWr FsRo FsSpec FsSpecP FsCoreP FsCoreP2 FsCoreP3 FsCoreP4 FsCoreP5 FsMach FsVolume FsVolumeP FsReach FsKeep PropFs.
Ltac Zify.zify_post_hook ::= idtac.

(** Calls that a read-only volume rejects, given valid arguments. *)
Definition writes_call (TM : N) (c : call) : Prop :=
  modifies c = true \/ c = CTransact \/ c = CRollback \/ exists m, c = CMaskSet m /\ N.land m TM = m.

Section P.
Variable g : cfg.
Hypothesis OK : cfg_ok g.
Variable atom : bool.
Variable MM TM TD : N.
Set Default Proof Using "All".
Notation exec := (exec g atom MM TM).
Notation step := (step g atom MM TM TD).
Notation steps := (steps g atom MM TM TD).
Notation reach := (reach g atom MM TM TD).
Notation shows := (shows g atom MM TM).
Notation mounts := (mounts g atom MM TM TD).
Notation durable := (durable g atom MM TM TD).
Notation Sim := (Sim g atom).
Notation no_commit := (no_commit g atom MM TM TD).

(** * C10 *)
(** At every instant of red_transact the media holds the old or the new state; no metaroot is written
    before all other blocks have reached the media and been flushed; and when the call returns
    successfully the new state is on the media, flushed, and no dirty buffer is left. *)
Theorem C10_transact v o1 o2 r v' t : reach v -> v_mnt v = true -> room v o1 o2 -> exec CTransact o1 o2 v = (Ok r, v', t) ->
  exists W C, shows v W /\ durable v C /\ shows v' W /\ durable v' W /\
    (forall sn d d', In sn t -> sn d -> lose atom d d' -> mounts d' C \/ mounts d' W) /\
    (forall sn d, In sn t -> sn d -> (forall i, d_mr d i = d_mr (v_d v) i) \/
       forall b, d_unf d b = false /\ d_blk d b = d_blk (v_d v') b) /\
    (forall b, s_wr (v_s v') b = false) /\
    (forall b, m_bits (s_c (v_s v')) b = true -> d_unf (v_d v') b = false) /\
    (forall i, d_mr (v_d v') i <> d_mr (v_d v) i -> d_mrd (v_d v') i = d_mr (v_d v') i).
Proof.
  intros R MN RM EX. destruct (reach_mnt g OK atom MM TM TD v R MN) as (W & C & SA). exists W, C.
  pose proof SA as (HV & _). pose proof EX as EX0. cbn [FsVolume.exec] in EX. unfold ounit, omap, RedCoreVolTransact, pbind, guard, pret in EX.
  rewrite MN in EX. cbn [negb] in EX. destruct (s_ro (v_s v)) eqn:RO; [discriminate|].
  destruct (transact_ok g OK atom v W C o1 (fun X => X = C \/ X = W) HV ltac:(unfold room in RM; lia) (or_introl eq_refl) (or_intror eq_refl)) as (v0 & t0 & R0 & HV' & RO' & MK' & HT & SQ & AF & BR & _).
  rewrite R0 in EX. injection EX as <- <- <-. rewrite app_nil_r.
  assert (SB : Sim v0 (Mnt W W false (v_mask v0))) by (split; auto; split; congruence).
  split; [eapply (Sim_shows g OK); eauto|]. split; [eapply (Sim_durable g OK); eauto|]. split; [eapply (Sim_shows g OK); eauto|]. split; [eapply (Sim_durable g OK); eauto|].
  split; [|split; [|split; [|split]]].
  - intros sn d d' IN HS LO. unfold FsVolumeG.TR in HT. rewrite Forall_forall in HT. destruct (HT sn IN d HS d' LO) as (X & [->| ->] & Y); [left|right]; apply (CS_mounts g OK); auto.
  - intros sn d IN HS. unfold RedVolTransact in R0. destruct (s_br (v_s v)); cbn [negb] in R0; [|injection R0 as <- <-; destruct IN].
    destruct (UINT64_MAX <=? v_seq v + fst o1); [discriminate|]. injection R0 as <- <-. cbn [In] in IN.
    destruct IN as [<-|[<-|[<-|[<-|[<-|[]]]]]]; try subst d; auto. left. destruct HS as (_ & H & _). exact H.
  - destruct HV' as (C1 & D1 & X). destruct (FSV_Idle g OK _ _ _ _ (x_w _ _ _ _ _ _ _ X)) as [pm K]. destruct (k_br K BR) as (_ & _ & Y). exact Y.
  - destruct HV' as (C1 & D1 & X). intros b Hb. rewrite (VIx_c g OK atom MM TM TD _ _ _ _ _ X) in Hb. apply X; auto.
  - intros i. unfold RedVolTransact in R0. destruct (s_br (v_s v)); cbn [negb] in R0; [|injection R0 as <- <-; congruence].
    destruct (UINT64_MAX <=? v_seq v + fst o1); [discriminate|]. injection R0 as <- <-. reflexivity.
Qed.

(** * C34 *)
(** The event bit is set: a successful call is a transaction point, its effect survives. *)
Theorem C34_commits v c r v' : reach v -> step v (Some (ECall c (Ok r))) v' -> modifies c = true -> has (v_mask v) (evbit c) = true ->
  exists F, shows v' F /\ durable v' F.
Proof.
  intros R S MC HE. destruct (commit_sim g OK atom MM TM TD v c r v' R S) as (W & SA); [right; right; auto|].
  exists W. split; [eapply (Sim_shows g OK); eauto|eapply (Sim_durable g OK); eauto].
Qed.
(** The event bit is clear and the volume-full bit too, or the call fails and the volume-full bit is clear: no
    metaroot is written, and the state that survives a power loss is the one before the call. *)
Theorem C34_no_commit v c r v' : reach v -> step v (Some (ECall c r)) v' -> modifies c = true -> v_mnt v = true ->
  has (v_mask v) T_VOLFULL = false -> (forall x, r = Ok x -> has (v_mask v) (evbit c) = false) ->
  (forall i, d_mr (v_d v') i = d_mr (v_d v) i) /\ exists F, durable v F /\ durable v' F.
Proof.
  intros R S MC MN VF HE. destruct (reach_mnt g OK atom MM TM TD v R MN) as (W & C & ((C0 & D0 & X) & _)). inversion S; subst. match goal with H : exec _ _ _ _ = _ |- _ => rename H into EX end.
  assert (DM : forall i, d_mr (v_d v') i = d_mr (v_d v) i).
  { destruct (mod_form g OK atom MM TM TD c MC H1) as (A & m & f & bad & EQ & HO & HB). rewrite EQ in EX. unfold omap in EX. unfold pbind in EX at 1.
    destruct (autocommit (evbit c) m o1 o2 v) as [[r0 v0] t0] eqn:R0. assert (v' = v0) as -> by (unfold pret in EX; destruct r0; injection EX as <- <- <-; auto).
    unfold autocommit, guard in R0. rewrite MN in R0. cbn [negb] in R0. destruct (s_ro (v_s v)); [injection R0 as <- <- <-; auto|].
    unfold pbind in R0 at 1. unfold pcatch in R0. destruct (core m v) as [[r1 v1] t1] eqn:R1.
    assert (E1 : v_d v1 = v_d v /\ v_mask v1 = v_mask v). { unfold core in R1. destruct (m (v_s v)). injection R1 as <- <- <-. auto. } destruct E1 as [E1 E2].
    destruct r1 as [a|e].
    - unfold pret in R0 at 1. rewrite E2 in R0. destruct (has (v_mask v) (evbit c)) eqn:HB'; [|unfold pret in R0; injection R0 as <- <- <-; intros; congruence].
      unfold pbind in R0. destruct (RedVolTransact o2 v1) as [[[[]|] v3] t3] eqn:R3.
      + unfold pret in *. injection R0 as <- <- <-. injection EX as <- <-. specialize (HE _ eq_refl). discriminate.
      + unfold RedVolTransact in R3. destruct (s_br (v_s v1)); cbn [negb] in R3; [|discriminate]. destruct (UINT64_MAX <=? v_seq v1 + fst o2); [|discriminate].
        injection R3 as <- <- <-. injection R0 as <- <- <-. intros i. cbn. now rewrite E1.
    - destruct e; try (injection R0 as <- <- <-; intros; congruence). rewrite E2, VF in R0. cbn [andb] in R0. injection R0 as <- <- <-; intros; congruence. }
  split; auto. exists C.
  assert (MN' : v_mnt v' = true).
  { destruct (mounted_run g OK atom MM TM TD c o1 o2 v W C (s_ro (v_s v)) (v_mask v)) as (r0 & v0 & t0 & EX' & Y); auto; [split; [exists C0, D0; auto|auto]|].
    rewrite EX in EX'. injection EX' as <- <- <-. destruct Y as (a' & AS & SA' & _).
    inversion AS; subst; cbn in MC; try discriminate; try (eapply (Sim_mnt g OK); eauto; fail). }
  split; [eapply (no_commit_durable g OK); eauto; apply NC_nil|]. eapply (no_commit_durable g OK); eauto. eapply NC_call; eauto. apply NC_nil.
Qed.
(** With the volume-full bit and without the event bit, the state before the call may be committed, never a later one. *)
Theorem C34_volfull v c r v' : reach v -> step v (Some (ECall c r)) v' -> modifies c = true -> v_mnt v = true ->
  (forall x, r = Ok x -> has (v_mask v) (evbit c) = false) ->
  exists W C, shows v W /\ durable v C /\ (durable v' C \/ has (v_mask v) T_VOLFULL = true /\ durable v' W).
Proof.
  intros R S MC MN HE. destruct (reach_mnt g OK atom MM TM TD v R MN) as (W & C & SA). exists W, C.
  split; [eapply (Sim_shows g OK); eauto|]. split; [eapply (Sim_durable g OK); eauto|].
  destruct (step_sim g OK atom MM TM TD _ _ _ _ SA S) as (a' & AS & SA').
  inversion AS; subst; cbn in MC; try discriminate.
  - rewrite HE with (x := r0) in SA' by auto. match goal with H : retry _ _ _ _ |- _ => destruct H as [->|[X ->]] end; [left|right; split; auto]; eapply (Sim_durable g OK); eauto.
  - match goal with H : retry _ _ _ _ |- _ => destruct H as [->|[X ->]] end; [left|right; split; auto]; eapply (Sim_durable g OK); eauto.
  - left. eapply (Sim_durable g OK); eauto.
  - destruct c; discriminate.
  - match goal with H : _ = CTransact \/ _ |- _ => destruct H; subst; discriminate end.
Qed.
(** Setting the mask: unknown bits are rejected and nothing changes; otherwise exactly the mask changes. *)
Theorem C34_mask v m o1 o2 : v_mnt v = true ->
  (N.land m TM <> m -> exec (CMaskSet m) o1 o2 v = (Err EINVAL, v, [])) /\
  (N.land m TM = m -> s_ro (v_s v) = false -> exists v', exec (CMaskSet m) o1 o2 v = (Ok OUnit, v', []) /\
     exec CMaskGet o1 o2 v' = (Ok (ONum m), v', []) /\ v_s v' = v_s v /\ v_d v' = v_d v) /\
  exec CMaskGet o1 o2 v = (Ok (ONum (v_mask v)), v, []).
Proof using.
  intros MN. cbn [FsVolume.exec]. unfold ounit, omap, pbind, RedCoreTransMaskSet, RedCoreTransMaskGet, pret. rewrite MN. cbn [negb orb]. split; [|split].
  - intros Ne. destruct (N.eqb_spec (N.land m TM) m); [congruence|]. reflexivity.
  - intros -> RO. rewrite N.eqb_refl, RO. cbn [negb]. eexists. split; [reflexivity|]. cbn [v_mnt vset_mask v_mask]. rewrite MN. auto.
  - reflexivity.
Qed.

(** * C23 *)
(** For every volume state, also after a critical error: a read-only volume rejects every modifying call
    and nothing at all happens. *)
Theorem C23_rejects v c o1 o2 : v_mnt v = true -> s_ro (v_s v) = true -> writes_call TM c -> exec c o1 o2 v = (Err EROFS, v, []).
Proof using.
  intros MN RO WC.
  assert (AC : forall A ev (m : M st A) (k : A -> out), omap k (autocommit ev m o1 o2) v = (Err EROFS, v, [])).
  { intros. unfold omap, pbind, autocommit, guard. rewrite MN, RO. reflexivity. }
  destruct WC as [MC|[->|[->|(m & -> & E)]]].
  - destruct c; try discriminate MC; cbn [FsVolume.exec]; unfold ounit; apply AC.
  - cbn [FsVolume.exec]. unfold ounit, omap, pbind, RedCoreVolTransact, guard. now rewrite MN, RO.
  - cbn [FsVolume.exec]. unfold ounit, omap, pbind, RedCoreVolRollback, guard. now rewrite MN, RO.
  - cbn [FsVolume.exec]. unfold ounit, omap, pbind, RedCoreTransMaskSet. rewrite MN, E, N.eqb_refl, RO. reflexivity.
Qed.
(** It stays read-only whatever is called, until it is unmounted; unmounting it commits nothing. *)
Theorem C23_stays v c o1 o2 r v' t : v_mnt v = true -> s_ro (v_s v) = true -> allowed v c -> exec c o1 o2 v = (r, v', t) ->
  v_d v' = v_d v /\ s_c (v_s v') = s_c (v_s v) /\ s_ro (v_s v') = true /\ v_mnt v' = (match c with CUnmount => false | _ => true end) /\
  (c = CUnmount -> r = Ok OUnit /\ t = []).
Proof using.
  intros MN RO AL EX.
  assert (AC : forall A ev (m : M st A) (k : A -> out), omap k (autocommit ev m o1 o2) v = (Err EROFS, v, [])).
  { intros. unfold omap, pbind, autocommit, guard. rewrite MN, RO. reflexivity. }
  assert (RD : forall A (m : M st A) (k : A -> out), rs m -> ws m -> omap k (mounted m) v = (r, v', t) ->
     v_d v' = v_d v /\ s_c (v_s v') = s_c (v_s v) /\ s_ro (v_s v') = true /\ v_mnt v' = true).
  { intros A m k _ WL E. unfold omap, pbind, mounted, core, pret in E. rewrite MN in E. cbn [negb] in E. specialize (WL (v_s v)). cbn in WL.
    destruct (m (v_s v)) as [r0 s']. cbn [snd] in WL. destruct WL as (_ & _ & W3 & W4 & _). destruct r0; injection E as <- <- <-; cbn; auto. }
  destruct c; cbn [FsVolume.exec] in EX; unfold ounit in EX;
    try (unfold RedCoreCreate, RedCoreLink, RedCoreUnlink, RedCoreRename, RedCoreFileWrite, RedCoreFileTruncate in EX; rewrite AC in EX; injection EX as <- <- <-; repeat split; auto; discriminate).
  - destruct (RD _ _ _ (r_CoreLookup g p nm) (w_CoreLookup g p nm) EX) as (? & ? & ? & ?). repeat split; auto; discriminate.
  - destruct (RD _ _ _ (r_CoreStat g i) (w_CoreStat g i) EX) as (? & ? & ? & ?). repeat split; auto; discriminate.
  - destruct (RD _ _ _ (r_CoreFileRead g i start len) (w_CoreFileRead g i start len) EX) as (? & ? & ? & ?). repeat split; auto; discriminate.
  - destruct (RD _ _ _ (r_CoreDirRead g i pos) (w_CoreDirRead g i pos) EX) as (? & ? & ? & ?). repeat split; auto; discriminate.
  - destruct (RD _ _ _ (r_CoreDirParent g i) (w_CoreDirParent g i) EX) as (? & ? & ? & ?). repeat split; auto; discriminate.
  - unfold omap, pbind, RedCoreVolTransact, guard in EX. rewrite MN, RO in EX. injection EX as <- <- <-. repeat split; auto; discriminate.
  - unfold omap, pbind, RedCoreVolRollback, guard in EX. rewrite MN, RO in EX. injection EX as <- <- <-. repeat split; auto; discriminate.
  - unfold omap, pbind, RedCoreTransMaskSet in EX. rewrite MN, RO in EX. cbn [negb orb] in EX. destruct (negb (N.land m TM =? m)); injection EX as <- <- <-; repeat split; auto; discriminate.
  - unfold omap, pbind, RedCoreTransMaskGet, pret in EX. rewrite MN in EX. injection EX as <- <- <-. repeat split; auto; discriminate.
  - unfold omap, pbind, RedCoreVolStat, pret in EX. rewrite MN in EX. injection EX as <- <- <-. repeat split; auto; discriminate.
  - cbn in AL. congruence.
  - unfold omap, pbind, RedCoreVolUnmount, pmod, pret in EX. rewrite RO in EX. cbn [negb andb] in EX. injection EX as <- <- <-. repeat split; auto; discriminate.
  - unfold omap, pbind, RedVolFormat, RedVolFormatWith in EX. rewrite MN in EX. injection EX as <- <- <-. repeat split; auto; discriminate.
Qed.

(** After a read-only mount, whatever is called until the volume is unmounted: neither the visible state nor the
    media changes, at any instant. *)
Lemma ro_run v1 t v2 : steps v1 t v2 -> forall W C mask, Sim v1 (Mnt W C true mask) -> (forall b, s_wr (v_s v1) b = false) ->
  Forall (fun e => match e with ECall CUnmount _ => False | ECall _ _ => True | ECrash _ => False end) t ->
  Sim v2 (Mnt W C true mask) /\ (forall b, s_wr (v_s v2) b = false) /\ (forall b, d_blk (v_d v2) b = d_blk (v_d v1) b) /\ (forall i, d_mr (v_d v2) i = d_mr (v_d v1) i).
Proof.
  induction 1 as [v|v e v1 t v2 S1 _ IH|v v1 t v2 S1 _ IH]; intros W C mask HS WR QT.
  - auto.
  - inversion QT as [|? ? Q1 Q2]; subst. pose proof (step_sim g OK atom MM TM TD _ _ _ _ HS S1) as (a' & AS & SA').
    assert (G : v_s v1 = v_s v /\ v_d v1 = v_d v /\ a' = Mnt W C true mask).
    { pose proof (Sim_mnt g OK atom MM TM TD _ _ _ _ _ HS) as MN. pose proof HS as (_ & RO & _). inversion S1; subst; try tauto. match goal with H : exec _ _ _ _ = _ |- _ => rename H into EX end.
      match goal with H : legal _ |- _ => rename H into LG end. match goal with H : allowed _ _ |- _ => rename H into AL end.
      destruct (modifies c) eqn:MC.
      { rewrite (C23_rejects v c o1 o2 MN RO (or_introl MC)) in EX. injection EX as <- <- <-. split; auto. split; auto. inversion AS; subst; auto; try discriminate. }
      destruct (reads c) eqn:RC.
      { destruct (read_call g OK atom MM TM TD c o1 o2 v W C true mask RC LG HS) as (r0 & t9 & R0 & _). rewrite EX in R0. injection R0 as <- -> <-. split; auto. split; auto. inversion AS; subst; auto; try discriminate; try congruence. }
      destruct c; try discriminate.
      - rewrite (C23_rejects v CTransact o1 o2 MN RO) in EX by (right; auto). injection EX as <- <- <-. split; auto. split; auto. inversion AS; subst; auto; discriminate.
      - rewrite (C23_rejects v CRollback o1 o2 MN RO) in EX by (right; auto). injection EX as <- <- <-. split; auto. split; auto. inversion AS; subst; auto; discriminate.
      - cbn [FsVolume.exec] in EX. unfold ounit, omap, pbind, RedCoreTransMaskSet in EX. rewrite MN, RO in EX. cbn [negb orb] in EX. destruct (negb (N.land m TM =? m)); injection EX as <- <- <-; (split; [auto|split; [auto|inversion AS; subst; auto; discriminate]]).
      - cbn [FsVolume.exec] in EX. unfold omap, pbind, RedCoreTransMaskGet, pret in EX. rewrite MN in EX. injection EX as <- <- <-. split; auto. split; auto. inversion AS; subst; auto; discriminate.
      - cbn [FsVolume.exec] in EX. unfold omap, pbind, RedCoreVolStat, pret in EX. rewrite MN in EX. injection EX as <- <- <-. split; auto. split; auto. inversion AS; subst; auto; discriminate.
      - cbn in AL. congruence.
      - tauto.
      - cbn [FsVolume.exec] in EX. unfold ounit, omap, pbind, RedVolFormat, RedVolFormatWith in EX. rewrite MN in EX. injection EX as <- <- <-. split; auto. split; auto. inversion AS; subst; auto; discriminate. }
    destruct G as (G1 & G2 & ->). destruct (IH W C mask SA') as (I1 & I2 & I3 & I4); auto; [intros b; rewrite G1; auto|].
    split; auto. split; auto. rewrite G2 in *. auto.
  - pose proof (step_sim g OK atom MM TM TD _ _ _ _ HS S1) as SA. cbn beta iota in SA. inversion S1; subst. match goal with H : mayhap _ _ _ |- _ => rename H into MH end.
    destruct (IH W C mask SA) as (I1 & I2 & I3 & I4); auto. destruct MH as (M1 & M2 & _). cbn [v_d vset_seq vset_d] in *.
    split; auto. split; auto. split; [intros b; rewrite I3; apply M1; auto|intros i; rewrite I4; auto].
Qed.
Theorem C23_ro_mount v0 flags r v1 t v2 : reach v0 -> step v0 (Some (ECall (CMount flags) (Ok r))) v1 -> N.land flags RED_MOUNT_READONLY <> 0 ->
  steps v1 t v2 -> Forall (fun e => match e with ECall CUnmount _ => False | ECall _ _ => True | ECrash _ => False end) t ->
  exists F, shows v1 F /\ shows v2 F /\ durable v2 F /\ (forall b, d_blk (v_d v2) b = d_blk (v_d v1) b) /\ (forall i, d_mr (v_d v2) i = d_mr (v_d v1) i) /\
    (forall b, dirty v2 b = false).
Proof.
  intros R S NR ST QT. destruct (reach_sim g OK atom MM TM TD v0 R) as (a & SA). destruct (step_sim g OK atom MM TM TD _ _ _ _ SA S) as (a' & AS & SA').
  assert (WR : forall b, s_wr (v_s v1) b = false).
  { inversion S; subst. match goal with H : exec _ _ _ _ = _ |- _ => rename H into EX end. cbn [FsVolume.exec] in EX. unfold ounit, omap, RedCoreVolMount, pbind, pret in EX. destruct (negb (N.land flags MM =? flags)); [discriminate|].
    unfold RedVolMountMaster in EX. destruct (d_mst (v_d v0)); [|discriminate]. unfold RedVolMountMetaroot in EX.
    destruct (choose atom (d_mr (v_d (vset_seq n v0)))) as [[[i q] m]|]; [|discriminate].
    destruct ((if v_seq (vset_seq n v0) <? q then q else v_seq (vset_seq n v0)) =? UINT64_MAX); [discriminate|]. injection EX as <- <- <-. reflexivity. }
  inversion AS; subst; try discriminate. destruct (N.eqb_spec (N.land flags RED_MOUNT_READONLY) 0); [congruence|]. cbn [negb] in SA'.
  destruct (ro_run v1 t v2 ST C C mask SA' WR QT) as (S2 & W2 & B2 & M2). exists C.
  split; [eapply (Sim_shows g OK); eauto|]. split; [eapply (Sim_shows g OK); eauto|]. split; [eapply (Sim_durable g OK); eauto|]. split; auto. split; auto.
  intros b. unfold dirty. destruct (v_mnt v2); auto.
Qed.
End P.
