(** Format, reads and power loss at the level of a volume, for both APIs. *)
From Verif Require Import Base Count FsState FsImap FsInode FsData FsTree FsImapProof FsInv FsStep FsBranch FsRead FsWrite FsVol FsVol2 FsVol3 FsVol4 FsWp FsDir FsDirP FsCore FsWr FsRo FsSpec FsSpecP FsCoreP FsCoreP2 FsMach FsVolume FsVolumeG.
Ltac Zify.zify_post_hook ::= idtac.

Section R.
Variable good : fs -> Prop.
Variable g : cfg.
Hypothesis OK : cfg_ok g.
Set Default Proof Using "OK".
Notation FSV := (FSV g).
Notation VI := (VI good).
Notation TR := (TR good).

(** * Format *)
Lemma fmt_empty D : FSV (format_mr g) D (fun _ => None) (fresh false (format_mr g) D).
Proof.
  exists (fun _ => None). split; [|intros i; exact Logic.I]. exists (fun _ _ => 0).
  assert (LV : forall i, lv g (fresh false (format_mr g) D) i = false). { intros i. unfold lv, cur. cbn. now rewrite andb_false_r. }
  assert (TT : forall i, T g (fresh false (format_mr g) D) i = None). { intros i. unfold T, cur. cbn. now destruct (INODE_IS_VALID g i). }
  split; [|split; [|split]].
  - constructor; cbn [s_c fresh com cur m_bits s_w s_br s_wr s_ro s_res dk m_free s_afree m_freei format_mr]; auto; try discriminate.
    + constructor; cbn.
      * symmetry. unfold NALLOC. apply count_all. intros. reflexivity.
      * symmetry. apply (cnt_afree0 g OK). reflexivity.
      * intros L. unfold fresh. cbn. lia.
    + rewrite N.add_0_r. apply N.le_min_r.
    + intros j Hj. rewrite LV in Hj. discriminate.
    + symmetry. replace (ICNT g) with (2 + ICNT g - 2) at 2 by lia. apply count_all. intros. now rewrite LV.
    + constructor; try congruence. intros b _ X. discriminate X.
    + constructor; try congruence. intros j io e Hv. unfold view in Hv. rewrite TT in Hv. destruct (N.eqb_spec j 0); [|discriminate]. injection Hv as <-. reflexivity.
    + constructor; try congruence; cbn; lia.
    + intros j x Hx. rewrite TT in Hx. discriminate.
  - intros j. unfold absV. now rewrite TT.
  - intros o [].
  - constructor.
Qed.

Variable atom : bool.
Notation CS := (CS good g atom).
Notation lose := (lose atom).
(** What the media holds: a committed file system, or no file system. *)
Definition MS (d : dev) (X : option fs) : Prop := match X with Some C => CS d C | None => d_mst d = None /\ d_mstd d = None end.
Definition CRo (P : option fs -> Prop) (d : dev) : Prop := forall d', lose d d' -> exists X, P X /\ MS d' X.
Definition TRo (P : option fs -> Prop) (t : list snap) : Prop := Forall (fun sn : snap => forall d, sn d -> CRo P d) t.
Lemma TR_TRo (P : fs -> Prop) (Q : option fs -> Prop) t : (forall X, P X -> Q (Some X)) -> TR g atom P t -> TRo Q t.
Proof using. intros H. apply Forall_impl. intros sn X d Hd d' L. destruct (X d Hd d' L) as (Y & A & B). exists (Some Y). split; auto. Qed.
Lemma CRo_none (P : option fs -> Prop) d : P None -> d_mst d = None -> d_mstd d = None -> CRo P d.
Proof using.
  intros HP H1 H2 d' (_ & _ & L & _ & _ & E). exists None. split; auto. split; [|rewrite E]; destruct L as [->|[->|[-> _]]]; auto.
Qed.
Lemma MS_lose d d' X : MS d X -> lose d d' -> MS d' X.
Proof. destruct X as [C|]; cbn [MS]; [apply (CS_lose good g OK)|]. intros [H1 H2] (_ & _ & L & _ & _ & E). split; [|rewrite E]; destruct L as [->|[->|[-> _]]]; auto. Qed.
(** Formatting in two parts: up to the second metaroot, and the master block. *)
Definition format_pre (mk : M st unit) (o1 o2 : oracle) : PV unit :=
  write_master None ~;;
  pmod (fun v => vset_s (mkSt (d_blk (v_d v)) (fun _ => false) (format_mr g) (s_c (v_s v)) (s_afree (v_s v)) true false (s_res (v_s v))) v) ~;;
  RedVolTransact o1 ~;;
  core mk ~;;
  RedVolTransact o2.
Definition format_pre3 (mk : M st unit) (o1 : oracle) : PV unit :=
  write_master None ~;;
  pmod (fun v => vset_s (mkSt (d_blk (v_d v)) (fun _ => false) (format_mr g) (s_c (v_s v)) (s_afree (v_s v)) true false (s_res (v_s v))) v) ~;;
  RedVolTransact o1 ~;;
  core mk.
Definition ro3 mk o1 v : Prop := exists u w, format_pre3 mk o1 v = (Ok tt, u, w) /\ s_ro (v_s u) = false.
Definition format_fin : PV unit := fun v => if v_seq v =? UINT64_MAX then (Err EFUBAR, vset_s (set_ro true (v_s v)) v, [])
  else (write_master (Some (v_seq v)) ~;; pmod (fun v => vset_seq (v_seq v + 1) v)) v.
Lemma pbind_assoc {A B C} (m : PV A) (k : A -> PV B) (h : B -> PV C) v : pbind (pbind m k) h v = pbind m (fun a => pbind (k a) h) v.
Proof using.
  unfold pbind. destruct (m v) as [[[a|e] v1] t1]; auto. destruct (k a v1) as [[[b|e] v2] t2]; auto. destruct (h b v2) as [[r v3] t3]. now rewrite app_assoc.
Qed.
Lemma pbind_ext {A B} (m : PV A) (k k' : A -> PV B) v : (forall a v, k a v = k' a v) -> pbind m k v = pbind m k' v.
Proof using. intros H. unfold pbind. destruct (m v) as [[[a|e] v1] t1]; auto. now rewrite H. Qed.
Lemma format_split mk o1 o2 v : RedVolFormatWith g mk o1 o2 v = if v_mnt v then (Err EBUSY, v, []) else pbind (format_pre mk o1 o2) (fun _ => format_fin) v.
Proof using.
  unfold RedVolFormatWith, format_pre. destruct (v_mnt v); auto. symmetry. rewrite !pbind_assoc. apply pbind_ext. intros _ v1.
  rewrite !pbind_assoc. apply pbind_ext. intros _ v2. rewrite !pbind_assoc. apply pbind_ext. intros _ v3. rewrite !pbind_assoc. apply pbind_ext. intros _ v4.
  reflexivity.
Qed.
Definition nomst (d : dev) : Prop := d_mst d = None /\ d_mstd d = None.
Lemma format_first (P0 : option fs -> Prop) d : CRo P0 d -> CRo (fun Y => P0 Y \/ Y = None) (dwmst None d).
Proof.
  intros HM d' L. pose proof L as (L1 & L2 & L3 & L4 & L5 & L6). cbn in L1, L2, L3. destruct (d_mst d') as [q|] eqn:E.
  - destruct (HM d') as (X & PX & MX); [|eauto]. split; [auto|]. split; [auto|]. split; [left|repeat split; auto; congruence]. destruct L3 as [L3|[L3|[L3 _]]]; congruence.
  - exists None. split; auto. split; auto.
Qed.
(** The device after the first part, and when the master block is written. *)
Lemma format_pre_gen mk F0 v o1 o2 : ws mk -> good F0 ->
  (forall D s, FSV (format_mr g) D (fun _ => None) s -> exists s', mk s = (Ok tt, s') /\ FSV (format_mr g) D F0 s' /\ (s_w s' <> s_w s)) ->
   v_mnt v = false -> s_res (v_s v) = false -> s_afree (v_s v) = 0 ->
  v_seq v + fst o1 + fst o2 + 3 <= UINT64_MAX ->
  exists v' t, format_pre mk o1 o2 v = (Ok tt, v', eq (dwmst None (v_d v)) :: t) /\ v_mnt v' = false /\ s_res (v_s v') = false /\ v_mask v' = v_mask v /\ s_afree (v_s v') = 0 /\
    v_seq v' < UINT64_MAX /\ nomst (v_d v') /\ (forall b, d_unf (v_d v') b = false) /\ (forall i, d_mrd (v_d v') i = d_mr (v_d v') i) /\
    CS (dflush (dwmst (Some (v_seq v')) (v_d v'))) F0 /\
    Forall (fun sn : snap => forall d, sn d -> nomst d) t /\
    ro3 mk o1 v.
Proof.
  intros WM GF MK MN RS AF RM. unfold format_pre.
  set (d := v_d v). set (d0 := dwmst None d). set (D := d_blk d).
  unfold write_master. unfold pbind at 1. fold d d0. cbv beta iota. unfold pbind at 1, pmod at 1. cbn [vset_d v_d v_s v_mnt v_cur v_seq v_mask].
  rewrite AF, RS. unfold vset_s, vset_d. cbn [v_d v_mnt v_cur v_seq v_mask v_s]. rewrite MN. change (d_blk (dflush d0)) with D.
  (* first transaction *)
  unfold pbind at 1, RedVolTransact at 1. cbn [v_s s_br negb v_seq v_d v_cur v_mnt v_mask s_wr s_ro s_res].
  destruct (N.leb_spec UINT64_MAX (v_seq v + fst o1)); [lia|].
  set (q1 := v_seq v + fst o1) in *.
  assert (EM : newMR (mkSt D (fun _ => false) (format_mr g) (s_c (v_s v)) 0 true false false) = format_mr g).
  { unfold newMR, format_mr, mset_free. cbn. now rewrite N.add_0_r. }
  rewrite EM. cbn [dk andb]. set (M1 := format_mr g).
  set (e1 := dwrite (fun _ => false) (fun b => D b) (dflush d0)). set (e3 := dwmr (v_cur v) (MOk q1 M1) (dflush e1)). set (e4 := dflush e3).
  (* the first inodes *)
  pose proof (fmt_empty D) as FE. fold M1 in FE. unfold fresh in FE.
  set (s1 := mkSt (fun b => D b) (fun _ => false) M1 M1 0 false false false).
  destruct (MK D s1 FE) as (s2 & RC & F2 & NW).
  pose proof (WM s1) as WL. cbn in WL. rewrite RC in WL. cbn [snd] in WL.
  unfold pbind at 1. unfold core at 1. cbn [v_s]. fold s1. rewrite RC. unfold vset_s. cbn [v_d v_mnt v_cur v_seq v_mask].
  assert (B2 : s_br s2 = true).
  { destruct (s_br s2) eqn:B; auto. destruct (FSV_Idle g OK _ _ _ _ F2) as [pm K]. destruct (k_br K B) as (E1 & _). rewrite (k_c K) in E1. destruct NW. exact E1. }
  destruct WL as (_ & WU & _). cbn [s1 dk] in WU.
  destruct (FSV_Idle g OK _ _ _ _ F2) as [pm K2].
  (* second transaction *)
  unfold RedVolTransact at 1. cbn [v_s s_br negb v_seq v_d v_cur v_mnt v_mask]. rewrite B2. cbn [negb].
  destruct (N.leb_spec UINT64_MAX (q1 + 1 + fst o2)); [unfold q1 in *; lia|].
  set (q2 := q1 + 1 + fst o2) in *.
  set (dk2 := fun b => if s_wr s2 b && negb (cur s2 b) then snd o2 b else dk s2 b). set (M2 := newMR s2).
  set (f1 := dwrite (s_wr s2) dk2 e4). set (f3 := dwmr (negb (v_cur v)) (MOk q2 M2) (dflush f1)). set (f4 := dflush f3).
  assert (FC : FSV M2 dk2 F0 (fresh false M2 dk2)).
  { apply (FSV_commit g OK M1 D F0 s2 dk2 F2). intros b Hb. unfold dk2. now rewrite Hb, andb_false_r. }
  assert (DB : forall b, d_blk f4 b = dk2 b).
  { intros b. unfold f4, f3, f1, dwrite. cbn. destruct (s_wr s2 b) eqn:E; auto. unfold dk2. rewrite E. cbn [andb]. symmetry. apply WU; auto. }
  set (h1 := dwmst (Some (q2 + 1)) f4). set (h2 := dflush h1).
  assert (SL : SLOTS atom h2 (negb (v_cur v)) q2 M2).
  { assert (L12 : q1 < q2) by (unfold q2; lia). unfold SLOTS, h2, h1, f4, f3. cbn. rewrite !eqb_reflx. destruct (v_cur v); cbn; auto. }
  assert (CF : CS h2 F0).
  { apply (CS_intro good g OK atom h2 F0 (negb (v_cur v)) q2 M2 (q2 + 1) dk2); auto; try reflexivity; try (unfold q1, q2 in *; lia).
    - intros b _. split; [reflexivity|exact (DB b)]. }
  eexists. eexists. cbn [app]. split; [reflexivity|]. cbn [v_s v_d v_mnt v_mask s_res s_afree v_seq].
  split; [auto|]. split; [exact (k_res K2)|]. split; [auto|]. split; [auto|]. split; [unfold q1, q2 in *; lia|]. split; [split; reflexivity|]. split; [reflexivity|]. split; [reflexivity|]. split; [exact CF|].
  split; [repeat apply Forall_cons; try apply Forall_nil; try (intros y <-; split; reflexivity); try (intros y (_ & _ & _ & E1 & E2); split; rewrite ?E1, ?E2; reflexivity)|].
  eexists. eexists. unfold format_pre3, write_master, pbind, pmod. cbn [vset_d v_d v_s v_mnt v_cur v_seq v_mask]. fold d d0.
  rewrite AF, RS. unfold vset_s, vset_d. cbn [v_d v_mnt v_cur v_seq v_mask v_s]. rewrite MN. change (d_blk (dflush d0)) with D.
  unfold RedVolTransact. cbn [v_s s_br negb v_seq v_d v_cur v_mnt v_mask s_wr s_ro s_res]. fold q1.
  destruct (N.leb_spec UINT64_MAX q1); [lia|]. rewrite EM. cbn [dk andb]. fold M1. fold e1. fold e3. fold e4. unfold core. cbn [v_s]. fold s1. rewrite RC. unfold vset_s. cbn [v_d v_mnt v_cur v_seq v_mask v_s].
  split; [reflexivity|exact (k_ro K2)].
Qed.
(** The master block on a device that is otherwise settled. *)
Lemma format_last F0 d q : nomst d -> (forall b, d_unf d b = false) -> (forall i, d_mrd d i = d_mr d i) -> CS (dflush (dwmst (Some q) d)) F0 ->
  CRo (fun Y => Y = None \/ Y = Some F0) (dwmst (Some q) d).
Proof.
  intros (N1 & N2) U MR CF d' L. pose proof L as (L1 & L2 & L3 & L4 & L5 & L6). destruct (d_mst d') as [q'|] eqn:E.
  - exists (Some F0). split; [auto|]. cbn [MS].
    assert (E' : q' = q). { cbn in L3. rewrite N2 in L3. destruct L3 as [L3|[L3|[L3 _]]]; congruence. } subst q'.
    apply (CS_lose good g OK atom (dflush (dwmst (Some q) d)) d' F0 CF). cbn in *. split; [intros b _; apply L1; auto|]. split; [|split].
    + intros i. specialize (L2 i). rewrite MR in L2. destruct L2 as [Q|[Q|[Nq _]]]; cbn; auto. destruct Nq. reflexivity.
    + right. left. rewrite E. reflexivity.
    + repeat split; auto. congruence.
  - exists None. split; auto. split; auto.
Qed.
Lemma format_genP mk F0 v (P0 : option fs -> Prop) o1 o2 : ws mk -> good F0 ->
  (forall D s, FSV (format_mr g) D (fun _ => None) s -> exists s', mk s = (Ok tt, s') /\ FSV (format_mr g) D F0 s' /\ (s_w s' <> s_w s)) ->
   v_mnt v = false -> s_res (v_s v) = false -> s_afree (v_s v) = 0 -> CRo P0 (v_d v) ->
  v_seq v + fst o1 + fst o2 + 3 <= UINT64_MAX ->
  exists v' t, RedVolFormatWith g mk o1 o2 v = (Ok tt, v', t) /\ v_mnt v' = false /\ s_res (v_s v') = false /\ MS (v_d v') (Some F0) /\ v_mask v' = v_mask v /\ s_afree (v_s v') = 0 /\
    TRo (fun Y => P0 Y \/ Y = None \/ Y = Some F0) t.
Proof.
  intros WM GF MK MN RS AF HM RM. destruct (format_pre_gen mk F0 v o1 o2 WM GF MK MN RS AF RM) as (v1 & t1 & E & A1 & A2 & A3 & A4 & A5 & A6 & A7 & A8 & A9 & A10 & _).
  rewrite format_split, MN. unfold pbind at 1. rewrite E. unfold format_fin. destruct (N.eqb_spec (v_seq v1) UINT64_MAX); [lia|].
  cbn. eexists. eexists. split; [reflexivity|]. cbn [v_mnt v_s v_d v_mask s_res s_afree vset_seq vset_d].
  split; [auto|]. split; [auto|]. split; [exact A9|]. split; [auto|]. split; [auto|]. unfold TRo.
  apply Forall_cons; [|apply Forall_app; split; [|apply Forall_cons; [|apply Forall_cons; [|apply Forall_nil]]]].
  - intros y <-. intros d' L. destruct (format_first P0 (v_d v) HM d' L) as (X & PX & MX). exists X. split; auto. destruct PX; auto.
  - eapply Forall_impl; [|exact A10]. intros sn H d Hd. destruct (H d Hd). apply CRo_none; auto.
  - intros y <-. intros d' L. destruct (format_last F0 (v_d v1) (v_seq v1) A6 A7 A8 A9 d' L) as (X & PX & MX). exists X. split; auto.
  - intros y <-. intros d' L. exists (Some F0). split; [auto|]. exact (MS_lose _ _ (Some F0) A9 L).
Qed.
Lemma MS_CRo (P : option fs -> Prop) d X : MS d X -> P X -> CRo P d.
Proof. intros H HP d' L. exists X. split; auto. eapply MS_lose; eauto. Qed.
Lemma format_gen mk F0 v X o1 o2 : ws mk -> good F0 ->
  (forall D s, FSV (format_mr g) D (fun _ => None) s -> exists s', mk s = (Ok tt, s') /\ FSV (format_mr g) D F0 s' /\ (s_w s' <> s_w s)) ->
   v_mnt v = false -> s_res (v_s v) = false -> s_afree (v_s v) = 0 -> MS (v_d v) X ->
  v_seq v + fst o1 + fst o2 + 3 <= UINT64_MAX ->
  exists v' t, RedVolFormatWith g mk o1 o2 v = (Ok tt, v', t) /\ v_mnt v' = false /\ s_res (v_s v') = false /\ MS (v_d v') (Some F0) /\ v_mask v' = v_mask v /\ s_afree (v_s v') = 0 /\
    TRo (fun Y => Y = X \/ Y = None \/ Y = Some F0) t.
Proof.
  intros WM GF MK MN RS AF HM RM. apply (format_genP mk F0 v (fun Y => Y = X) o1 o2 WM GF MK MN RS AF); auto. eapply MS_CRo; eauto.
Qed.

(** * Reads *)
Lemma read_run {A} (m : M st A) (Q : res A -> fs -> Prop) v W C : rs m ->
  (forall C0 D0 F s, FSV C0 D0 F s -> exists r, m s = (r, s) /\ Q r F) -> VI g atom v W C ->
  exists r, mounted m v = (r, v, [mayhap (s_wr (v_s v)) (v_d v)]) /\ Q r W.
Proof.
  intros HR H (C0 & D0 & X). destruct (H C0 D0 W _ (x_w _ _ _ _ _ _ _ _ X)) as (r & R & HQ). exists r. split; auto.
  unfold mounted. rewrite (x_mnt _ _ _ _ _ _ _ _ X). cbn [negb]. unfold core.
  assert (E : m (v_s v) = (r, v_s v)).
  { destruct (s_ro (v_s v)) eqn:RO; [|now rewrite (set_ro_id false _ RO) in R].
    specialize (HR (set_ro false (v_s v))). rewrite R in HR. cbn [fst snd] in HR.
    assert (E : ro1 (set_ro false (v_s v)) = v_s v). { unfold ro1. destruct (v_s v); cbn in *. subst. reflexivity. }
    rewrite E in HR. exact HR. }
  rewrite E. destruct v. reflexivity.
Qed.
Lemma back_CS v W C d : VI g atom v W C -> mayhap (s_wr (v_s v)) (v_d v) d -> CS d C.
Proof. intros (C0 & D0 & X) H. eapply (VIx_mayhap good g OK); eauto. eapply (VIx_wr good g OK); eauto. Qed.
Lemma back_TR v W C (P : fs -> Prop) : VI g atom v W C -> P C -> TR g atom P [mayhap (s_wr (v_s v)) (v_d v)].
Proof. intros H HP. repeat constructor. intros d Hd. eapply (CS_CR good g OK); eauto. eapply back_CS; eauto. Qed.

End R.
