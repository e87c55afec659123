(** Device failures at the volume level: after a failure the volume is read-only and the device is as after losing power
    during the call. *)
From Verif Require Import Base Count FsState FsImap FsInode FsData FsTree FsImapProof FsInv FsBranch FsRead FsWrite FsVol FsDir FsDirP FsCore FsWr FsRo FsSpec FsSpecP FsCoreP FsCoreP2 FsMach FsVolume FsVolumeG FsFormat.
From Verif Require Import FltMonad FltImap FltInode FltData FltDir FltCore FltP FltCoreP FltVolume.
Ltac Zify.zify_post_hook ::= idtac.
Close Scope flt_scope.

Section V.
Variable good : fs -> Prop.
Variable g : cfg.
Hypothesis OK : cfg_ok g.
Variable atom : bool.
Set Default Proof Using "OK".
Notation FSV := (FSV g).
Notation CS := (CS good g atom).
Notation CR := (CR good g atom).
Notation TR := (TR good g atom).
Notation VIx := (VIx good g atom).
Notation VI := (VI good g atom).
Notation OPS := (OPS good g).
Notation stable := (stable atom).
Notation TransactF := (FltVolume.RedVolTransact atom).

(** A device that holds one of the states of P, while blocks of wr may still be written. *)
Definition DV (P : fs -> Prop) (wr : N -> bool) (d : dev) : Prop :=
  forall d1, mayhap wr d d1 -> CR P d1 /\ d_mst d1 <> None /\ 
    (forall d2, part d1 d2 -> choose atom (d_mr d2) = choose atom (d_mrd d2) -> exists X, P X /\ CS d2 X).
(** A mounted volume after a failure. *)
Definition DN (P : fs -> Prop) (mask : N) (v : vol) : Prop :=
  v_mnt v = true /\ s_ro (v_s v) = true /\ s_res (v_s v) = false /\ v_mask v = mask /\ DV P (s_wr (v_s v)) (v_d v).
Lemma mayhap_refl wr d : mayhap wr d d. Proof using. clear. unfold mayhap. auto. Qed.
Lemma mayhap_trans wr d d1 d2 : mayhap wr d d1 -> mayhap wr d1 d2 -> mayhap wr d d2.
Proof using.
  clear. intros (A1 & A2 & A3 & A4 & A5) (B1 & B2 & B3 & B4 & B5). unfold mayhap. repeat split; try congruence.
  - destruct (B1 b H), (A1 b H). congruence.
  - destruct (B1 b H), (A1 b H). congruence.
Qed.
Lemma mayhap_sub (wr wr' : N -> bool) d d1 : (forall b, wr b = true -> wr' b = true) -> mayhap wr d d1 -> mayhap wr' d d1.
Proof using.
  clear. intros H (A1 & A2). split; auto. intros b Hb. apply A1. destruct (wr b) eqn:E; auto. rewrite H in Hb; auto.
Qed.
Lemma DV_imp (P Q : fs -> Prop) wr d : (forall X, P X -> Q X) -> DV P wr d -> DV Q wr d.
Proof using.
  intros H D d1 M. destruct (D d1 M) as (A & B & C). split; [|split; auto].
  - intros d' L. destruct (A d' L) as (X & HP & HC). eauto.
  - intros d2 M2 S. destruct (C d2 M2 S) as (X & HP & HC). eauto.
Qed.
Lemma DN_imp (P Q : fs -> Prop) mask v : (forall X, P X -> Q X) -> DN P mask v -> DN Q mask v.
Proof using. intros H (A & B & C & D & E). split; [auto|]. split; [auto|]. split; [auto|]. split; [auto|]. eapply DV_imp; eauto. Qed.
Lemma DV_mayhap P wr d d1 : DV P wr d -> mayhap wr d d1 -> DV P wr d1.
Proof using. intros H M d2 M2. apply H. eapply mayhap_trans; eauto. Qed.
Lemma DV_sub P (wr wr' : N -> bool) d : (forall b, wr b = true -> wr' b = true) -> DV P wr' d -> DV P wr d.
Proof using. intros S H d1 M. apply H. eapply mayhap_sub; eauto. Qed.
Lemma part_refl d : part d d. Proof using. clear. unfold part. intuition. Qed.
Lemma part_flush d : part d (dflush d). Proof using. clear. unfold part. cbn. intuition. Qed.
Lemma part_trans d d1 d2 : part d d1 -> part d1 d2 -> part d d2.
Proof using.
  clear. intros (A1 & A2 & A3 & A4 & A5 & A6) (B1 & B2 & B3 & B4 & B5 & B6). unfold part.
  split; [congruence|]. split; [intros b; destruct (B2 b); destruct (A2 b); intuition congruence|]. split; [congruence|].
  split; [intros i; destruct (B4 i); destruct (A4 i); specialize (A3 i); intuition congruence|]. split; [congruence|]. intuition congruence.
Qed.
Lemma part_lose d d1 d2 : part d d1 -> lose atom d1 d2 -> lose atom d d2.
Proof using.
  clear. intros (A1 & A2 & A3 & A4 & A5 & A6) (L1 & L2 & L3 & L4 & L5 & L6). split; [|split; [|split; [|auto]]].
  - intros b Hb. rewrite L1; auto. destruct (A2 b); congruence.
  - intros i. specialize (L2 i). specialize (A3 i). rewrite A3 in L2. destruct (A4 i) as [E|E]; rewrite E in L2; [auto|].
    destruct L2 as [->|[->|[N _]]]; auto. congruence.
  - rewrite A5 in L3. destruct A6 as [E|E]; rewrite E in L3; [auto|]. destruct L3 as [->|[->|[_ N]]]; auto. congruence.
Qed.
Lemma CS_part d d1 C : CS d C -> part d d1 -> CS d1 C.
Proof.
  intros (i & q & m & mq & (S1 & S2 & S3 & S4) & Q & M1 & M2 & MQ & F & W & U) (A1 & A2 & A3 & A4 & A5 & A6).
  apply (CS_intro good g OK atom d1 C i q m mq (d_blk d)); auto; try congruence.
  - unfold SLOTS. rewrite !A3. split; auto. split; [destruct (A4 i); congruence|]. split; auto. destruct (A4 (negb i)) as [->| ->]; auto.
  - destruct A6; congruence.
  - intros b Hb. split; [destruct (A2 b); auto; rewrite H; auto|auto].
Qed.
Lemma CS_DV (P : fs -> Prop) wr d C : P C -> (forall d1, mayhap wr d d1 -> CS d1 C) -> DV P wr d.
Proof.
  intros HP H d1 M. specialize (H d1 M). split; [eapply (CS_CR good g OK); eauto|]. split; [|intros d2 M2 _; exists C; split; auto; eapply CS_part; eauto].
  destruct H as (i & q & m & mq & _ & _ & -> & _). discriminate.
Qed.
Lemma VIx_DV (P : fs -> Prop) C0 D0 v W C wr : VIx C0 D0 v W C -> P C -> (forall b, wr b = true -> m_bits C0 b = false) -> DV P wr (v_d v).
Proof. intros X HP HW. eapply CS_DV; eauto. intros d1 M. eapply (VIx_mayhap good g OK); eauto. Qed.

(** ** Transaction points *)
Lemma transact_flt v W C o (P : fs -> Prop) r v' t : VI v W C -> v_seq v + fst o < UINT64_MAX -> P C -> P W ->
  TransactF o v r v' t ->
  FsVolume.RedVolTransact o v = (r, v', t) \/ r = Err EIO /\ DN P (v_mask v) v' /\ TR P t.
Proof.
  intros (C0 & D0 & X) RM PC PW (RO & [E|(B & -> & H)]); [auto|]. right. split; auto. cbv zeta in H.
  pose proof (VIx_wr good g OK _ _ _ _ _ _ X) as NW.
  destruct (FSV_Idle g OK _ _ _ _ (x_w _ _ _ _ _ _ _ _ X)) as [pm K].
  assert (RS : s_res (v_s v) = false) by apply (k_res K). pose proof (x_mnt _ _ _ _ _ _ _ _ X) as MN.
  assert (T1 : forall d, mayhap (s_wr (v_s v)) (v_d v) d -> CR P d).
  { intros d Hd. eapply (CS_CR good g OK); [|exact PC]. eapply (VIx_mayhap good g OK); eauto. }
  destruct H as [(d & MH & -> & ->)|(_ & x & d3 & HX & HD & -> & ->)].
  - split.
    + split; [exact MN|]. split; [reflexivity|]. split; [exact RS|]. split; [reflexivity|]. cbn [v_s v_d s_wr set_ro set_afree set_w].
      eapply DV_mayhap; [|exact MH]. eapply VIx_DV; eauto.
    + repeat constructor. exact T1.
  - pose proof X as [X1 (q & S & Q) (mq & M1 & M2 & MQ) X4 X5 X6 X7 X8 X9 X10].
    set (s := v_s v) in *. set (dk' := fun b => if s_wr s b && negb (cur s b) then snd o b else dk s b) in *.
    set (M := newMR s) in *. set (seq := v_seq v + fst o) in *.
    set (d1 := dwrite (s_wr s) dk' (v_d v)) in *. set (d2 := dflush d1) in *.
    assert (SQ : v_seq v <= seq) by (unfold seq; lia).
    assert (DK : forall b, cur s b = true -> dk' b = dk s b). { intros b Hb. unfold dk'. rewrite Hb, andb_false_r. reflexivity. }
    assert (FC : FSV M dk' W (fresh false M dk')).
    { apply (FSV_commit g OK C0 D0 W (set_ro false s) dk' X5). intros b Hb. apply DK. exact Hb. }
    assert (DB : forall b, d_blk d1 b = dk' b).
    { intros b. unfold d1, dwrite. cbn. destruct (s_wr s b) eqn:E; auto. unfold dk'. rewrite E. cbn [andb]. symmetry. apply X10; auto. }
    assert (MH : mayhap (s_wr s) (v_d v) d1).
    { unfold mayhap, d1, dwrite. cbn. repeat split; auto; rewrite H; auto. }
    assert (C1 : CS d1 C) by (eapply (VIx_mayhap good g OK); eauto).
    assert (C2 : CS d2 C) by (apply (CS_flush good g OK); auto).
    assert (DC : forall b, m_bits C0 b = true -> dk' b = D0 b).
    { intros b Hb. assert (HW : s_wr s b = false). { destruct (s_wr s b) eqn:E; auto. rewrite NW in Hb; auto. }
      unfold dk'. rewrite HW. cbn [andb]. rewrite X10 by auto. apply X9. auto. }
    (* a device with the old metaroot in its place and, in the other, an older one, an invalid one or the new one *)
    assert (AMB : forall d, (forall b, d_unf d b = false) -> (forall b, d_blk d b = dk' b) -> d_mst d = Some mq -> d_mstd d = Some mq ->
       d_mr d (negb (v_cur v)) = MOk q C0 -> d_mrd d (negb (v_cur v)) = MOk q C0 ->
       (older atom q (d_mr d (v_cur v)) \/ d_mr d (v_cur v) = MOk seq M) -> (older atom q (d_mrd d (v_cur v)) \/ d_mrd d (v_cur v) = MOk seq M) ->
       CR P d /\ d_mst d <> None /\ (forall d2, part d d2 -> choose atom (d_mr d2) = choose atom (d_mrd d2) -> exists X, P X /\ CS d2 X)).
    { assert (SEL : forall mr, mr (negb (v_cur v)) = MOk q C0 -> older atom q (mr (v_cur v)) -> choose atom mr = Ok (negb (v_cur v), q, C0)).
      { intros mr Y1 Y2. apply choose_older; auto. now rewrite negb_involutive. }
      assert (SEL' : forall mr, mr (negb (v_cur v)) = MOk q C0 -> mr (v_cur v) = MOk seq M -> choose atom mr = Ok (v_cur v, seq, M)).
      { intros mr Y1 Y2. apply choose_older; auto. rewrite Y1. cbn. lia. }
      assert (CSC : forall d, (forall b, d_unf d b = false) -> (forall b, d_blk d b = dk' b) -> d_mst d = Some mq -> d_mstd d = Some mq ->
         d_mr d (negb (v_cur v)) = MOk q C0 -> d_mrd d (negb (v_cur v)) = MOk q C0 -> older atom q (d_mr d (v_cur v)) -> older atom q (d_mrd d (v_cur v)) -> CS d C).
      { intros d U BL E1 E2 E3 E4 E5 E6. apply (CS_intro good g OK atom d C (negb (v_cur v)) q C0 mq D0); auto; try lia.
        - unfold SLOTS. rewrite negb_involutive. auto.
        - intros b Hb. split; auto. rewrite BL. auto. }
      assert (CSW : forall d, (forall b, d_unf d b = false) -> (forall b, d_blk d b = dk' b) -> d_mst d = Some mq -> d_mstd d = Some mq ->
         d_mr d (negb (v_cur v)) = MOk q C0 -> d_mrd d (negb (v_cur v)) = MOk q C0 -> d_mr d (v_cur v) = MOk seq M -> d_mrd d (v_cur v) = MOk seq M -> CS d W).
      { intros d U BL E1 E2 E3 E4 E5 E6. apply (CS_intro good g OK atom d W (v_cur v) seq M mq dk'); auto; try lia.
        unfold SLOTS. rewrite E3, E4, E5, E6. cbn. repeat split; auto; lia. }
      intros d U BL E1 E2 E3 E4 E5 E6. split; [|split; [congruence|]].
      - intros d' (L1 & L2 & L3 & L4 & L5 & L6).
        assert (MS : d_mst d' = Some mq). { destruct L3 as [->|[->|[_ Y]]]; auto. congruence. }
        assert (O : d_mr d' (negb (v_cur v)) = MOk q C0). { destruct (L2 (negb (v_cur v))) as [->|[->|[Y _]]]; auto. congruence. }
        assert (N0 : older atom q (d_mr d' (v_cur v)) \/ d_mr d' (v_cur v) = MOk seq M).
        { destruct (L2 (v_cur v)) as [->|[->|(_ & sec & -> & Y)]]; auto. left. cbn. intros At. apply Y; auto.
          - destruct E6 as [E6|E6]; [eapply older_sec; eauto|now rewrite E6].
          - destruct E5 as [E5|E5]; [eapply older_sec; eauto|now rewrite E5]. }
        destruct N0 as [N0|N0].
        + exists C. split; auto. apply CSC; auto; try congruence; try (intros b; rewrite L1; auto); rewrite L5; auto.
        + exists W. split; auto. apply CSW; auto; try congruence; try (intros b; rewrite L1; auto); rewrite L5; auto.
      - intros d0 (Z1 & Z2 & Z3 & Z4 & Z5 & Z6) ST.
        assert (U' : forall b, d_unf d0 b = false) by (intros b; destruct (Z2 b); [rewrite U in *|]; auto).
        assert (BL' : forall b, d_blk d0 b = dk' b) by (intros b; rewrite Z1; auto).
        assert (E1' : d_mst d0 = Some mq) by congruence. assert (E2' : d_mstd d0 = Some mq) by (destruct Z6; congruence).
        assert (E3' : d_mr d0 (negb (v_cur v)) = MOk q C0) by (rewrite Z3; auto).
        assert (E4' : d_mrd d0 (negb (v_cur v)) = MOk q C0) by (destruct (Z4 (negb (v_cur v))); congruence).
        assert (E5' : older atom q (d_mr d0 (v_cur v)) \/ d_mr d0 (v_cur v) = MOk seq M) by (rewrite Z3; auto).
        assert (E6' : older atom q (d_mrd d0 (v_cur v)) \/ d_mrd d0 (v_cur v) = MOk seq M) by (destruct (Z4 (v_cur v)) as [->| ->]; auto).
        clear U BL E1 E2 E3 E4 E5 E6. rename U' into U, BL' into BL, E1' into E1, E2' into E2, E3' into E3, E4' into E4, E5' into E5, E6' into E6.
        destruct E5 as [E5|E5], E6 as [E6|E6].
        + exists C. split; auto.
        + rewrite (SEL _ E3 E5), (SEL' _ E4 E6) in ST. injection ST as ST _ _. destruct (v_cur v); discriminate.
        + rewrite (SEL' _ E3 E5), (SEL _ E4 E6) in ST. injection ST as ST _ _. destruct (v_cur v); discriminate.
        + exists W. split; auto. }
    assert (OX : older atom q (d_mr d2 (v_cur v))).
    { destruct S as (_ & _ & S3 & _). rewrite negb_involutive in S3. exact S3. }
    assert (XX : older atom q x \/ x = MOk seq M).
    { destruct HX as [->|[->|(sec & -> & Y)]]; auto. left. cbn. intros At. apply Y; auto. eapply older_sec; eauto. }
    assert (NE : Bool.eqb (negb (v_cur v)) (v_cur v) = false) by now destruct (v_cur v).
    destruct S as (S1 & S2 & S3 & S4).
    assert (A3 : CR P (dwmr (v_cur v) x d2)).
    { apply AMB; auto; cbn; rewrite ?NE, ?eqb_reflx; auto. }
    assert (AD : CR P d3 /\ d_mst d3 <> None /\ (forall d2, part d3 d2 -> choose atom (d_mr d2) = choose atom (d_mrd d2) -> exists X, P X /\ CS d2 X)).
    { destruct HD as [->| ->]; apply AMB; auto; cbn; rewrite ?NE, ?eqb_reflx; auto. }
    split.
    + split; [exact MN|]. split; [reflexivity|]. split; [exact RS|]. split; [reflexivity|]. cbn [v_s v_d s_wr].
      intros d (H1 & H2 & H3 & H4 & H5).
      assert (EQ : (forall b, d_unf d b = false) /\ (forall b, d_blk d b = dk' b)).
      { split; intros b; destruct (H1 b eq_refl) as [Y1 Y2]; rewrite ?Y1, ?Y2; destruct HD as [->| ->]; try reflexivity; exact (DB b). }
      destruct EQ as [U BL]. apply AMB; auto.
      * rewrite H4. destruct HD as [->| ->]; auto.
      * rewrite H5. destruct HD as [->| ->]; auto.
      * rewrite H2. destruct HD as [->| ->]; cbn; rewrite NE; auto.
      * rewrite H3. destruct HD as [->| ->]; cbn; rewrite ?NE; auto.
      * rewrite H2. destruct HD as [->| ->]; cbn; rewrite eqb_reflx; auto.
      * rewrite H3. destruct HD as [->| ->]; cbn; rewrite ?eqb_reflx; auto.
    + repeat constructor.
      * exact T1.
      * intros d <-. eapply (CS_CR good g OK); eauto.
      * intros d <-. eapply (CS_CR good g OK); eauto.
      * intros d <-. exact A3.
      * intros d <-. apply AD.
Qed.

(** ** Core functions *)
Lemma core_flt {A} (bad : res A -> Prop) (m : M st A) F R E v W C (P : fs -> Prop) r v' t : OPS False m R E -> fltw bad m F -> VI v W C -> s_ro (v_s v) = false -> P C ->
  fcore F v r v' t -> core m v = (r, v', t) \/ bad r /\ DN P (v_mask v) v' /\ TR P t.
Proof.
  intros (_ & HO) (WL & _ & HF) (C0 & D0 & X) RO PC (s' & R1 & -> & ->).
  pose proof (x_w _ _ _ _ _ _ _ _ X) as FW. rewrite (set_ro_id false _ RO) in FW.
  specialize (HO C0 D0 W (v_s v) FW (x_WF _ _ _ _ _ _ _ _ X)).
  destruct (HF _ _ _ R1) as (RS & [EQ|(BD & Z1 & Z2 & Z3)]).
  - left. unfold core. now rewrite EQ.
  - right. split; auto. destruct (FSV_Idle g OK _ _ _ _ FW) as [pm K].
    assert (NW : forall b, s_wr s' b = true -> m_bits C0 b = false).
    { intros b Hb. destruct (Z3 b Hb) as [Hc|Hc]; [|unfold com in Hc; rewrite (k_c K) in Hc; exact Hc].
      assert (Y : exists W', FSV C0 D0 W' (snd (m (v_s v)))). { destruct (m (v_s v)) as [[a|e] s1]; cbn [snd]; [destruct HO as (W' & _ & _ & Y); eauto|destruct HO as [[[] _]|[_ Y]]; eauto]. }
      destruct Y as (W' & Y). destruct (FSV_Idle g OK _ _ _ _ Y) as [pm' K']. destruct (k_wr K' b Hc) as [Y1 _]. unfold com in Y1. rewrite (k_c K') in Y1. exact Y1. }
    split.
    + split; [apply X|]. split; [exact Z1|]. split; [apply RS; apply (k_res K)|]. split; [reflexivity|]. cbn [v_s v_d vset_s]. eapply (VIx_DV P C0 D0 v W C); eauto.
    + repeat constructor. intros d Hd. eapply (CS_CR good g OK); [|exact PC]. eapply (VIx_mayhap good g OK); eauto.
Qed.

(** ** ... with automatic transactions *)
Lemma autocommit_flt {A} (bad : res A -> Prop) (m : M st A) F R E ev o1 o2 v W C (P : fs -> Prop) r v' t :
  OPS False m R E -> fltw bad m F -> (forall a, ~ bad (Ok a)) -> bad (Err EIO) -> VI v W C -> s_ro (v_s v) = false ->
  v_seq v + fst o1 + fst o2 + 2 <= UINT64_MAX ->
  P C -> (has (v_mask v) T_VOLFULL = true -> P W) -> (forall a W', has (v_mask v) ev = true -> R a W W' -> P W') ->
  autocommit atom ev F o1 o2 v r v' t ->
  FsVolume.autocommit ev m o1 o2 v = (r, v', t) \/ (exists e, r = Err e /\ bad r) /\ DN P (v_mask v) v' /\ TR P t.
Proof.
  intros HO HF NB BE HV RO RM PC PW PE. unfold autocommit, FsVolume.autocommit, fguard, guard.
  assert (MN : v_mnt v = true) by (destruct HV as (? & ? & X); apply X). rewrite MN, RO. cbn [negb].
  set (part1 := pcatch (core m) _). intros (r1 & v1 & t1 & H1 & H2).
  assert (P1 : (part1 v = (r1, v1, t1) /\ v_mask v1 = v_mask v /\
       match r1 with Ok a => exists W' Cm, R a W W' /\ VI v1 W' Cm /\ s_ro (v_s v1) = false /\ P Cm /\ TR P t1 /\ v_seq v1 <= v_seq v + fst o1 + 1 | Err e => True end) \/
     (exists e, r1 = Err e /\ bad r1) /\ DN P (v_mask v) v1 /\ TR P t1).
  { destruct H1 as (r0 & v0 & t0 & t0' & HC & HK & ->).
    destruct (core_flt bad m F R E v W C P r0 v0 t0 HO HF HV RO PC HC) as [EQ|(BD & D0 & T0)].
    - destruct (core_ok good g OK atom False m R E v W C HO HV RO) as (r0' & v0' & t0'' & EQ' & MK0 & SQ0 & X0). rewrite EQ in EQ'. injection EQ' as <- <- <-.
      unfold part1, pcatch. rewrite EQ. destruct r0 as [a|e].
      + unfold fpure in HK. rewrite HK. left. injection HK as <- <- <-. split; auto. split; auto. destruct X0 as (W' & HR & HV' & RO' & HT).
        exists W', C. repeat (split; auto); [|lia]. rewrite app_nil_r. eapply (TR_imp good g atom); [|exact HT]. intros Y <-. auto.
      + destruct X0 as [[[] _]|(HE & HV' & RO' & HT)].
        assert (HT' : TR P t0) by (eapply (TR_imp good g atom); [|exact HT]; intros Y <-; auto).
        assert (FE : forall e', fpure (pfail e') v0 r1 v1 t0' -> (@pfail A e' v0 = (r1, v1, t0') /\ v_mask v1 = v_mask v /\ match r1 with Ok a => False | Err e => True end)).
        { intros e' HH. split; auto. injection HH as <- <- <-. auto. }
        destruct (errno_eq_dec e ENOSPC) as [->|Ne].
        2:{ left. assert (HK' : fpure (pfail e) v0 r1 v1 t0') by (destruct e; try exact HK; congruence). destruct (FE e HK') as (EQ1 & EQ2 & EQ3).
            split; [|split; auto; destruct r1; [contradiction|auto]]. destruct e; try congruence; rewrite EQ1; reflexivity. }
        rewrite MK0 in HK |- *. destruct (has (v_mask v) T_VOLFULL) eqn:VF; cbn [andb] in HK |- *.
        2:{ left. destruct (FE _ HK) as (EQ1 & EQ2 & EQ3). rewrite EQ1. split; auto. split; auto. destruct r1; [contradiction|auto]. }
        destruct (0 <? s_afree (v_s v0)).
        2:{ left. destruct (FE _ HK) as (EQ1 & EQ2 & EQ3). rewrite EQ1. split; auto. split; auto. destruct r1; [contradiction|auto]. }
        destruct HK as (r2 & v2 & t2 & HT2 & HK).
        destruct (transact_flt v0 W C o1 P r2 v2 t2 HV' ltac:(lia) PC (PW eq_refl) HT2) as [EQ2|(-> & D2 & T2)].
        2:{ right. destruct HK as (-> & -> & ->). split; [eauto|]. rewrite MK0 in D2. split; auto. apply TR_app; auto. }
        destruct (transact_ok good g OK atom v0 W C o1 P HV' ltac:(lia) PC (PW eq_refl)) as (v2' & t2' & R2 & HV2 & RO2 & MK2 & HTT2 & SQ2 & _).
        rewrite EQ2 in R2. injection R2 as -> <- <-. destruct HK as (t3 & HK & ->). unfold pbind. rewrite EQ2.
        destruct (core_flt bad m F R E v2 W W P r1 v1 t3 HO HF HV2 ltac:(congruence) (PW eq_refl) HK) as [EQ3|(BD & D3 & T3)].
        * left. rewrite EQ3. destruct (core_ok good g OK atom False m R E v2 W W HO HV2 ltac:(congruence)) as (r3' & v3' & t3' & R3 & MK3 & SQ3 & X3).
          rewrite EQ3 in R3. injection R3 as <- <- <-. split; auto. split; [congruence|]. destruct r1 as [a|e]; auto.
          destruct X3 as (W' & HR & HV3 & RO3 & HT3). exists W', W. repeat (split; auto); [|lia]. apply TR_app; auto. apply TR_app; auto.
          eapply (TR_imp good g atom); [|exact HT3]. intros Y <-. auto.
        * right. split; [destruct r1; [destruct (NB _ BD)|eauto]|]. rewrite MK2, MK0 in D3. split; auto. apply TR_app; auto. apply TR_app; auto.
    - right. destruct r0 as [a|e]; [destruct (NB _ BD)|].
      assert (FE : forall e', fpure (pfail e') v0 r1 v1 t0' -> e' = e -> (exists e0, r1 = Err e0 /\ bad r1) /\ DN P (v_mask v) v1 /\ TR P (t0 ++ t0')).
      { intros e' HH ->. injection HH as <- <- <-. split; [eauto|]. split; auto. now rewrite app_nil_r. }
      destruct (errno_eq_dec e ENOSPC) as [->|Ne]; [|apply (FE e); auto; destruct e; try exact HK; congruence].
      destruct (has (v_mask v0) T_VOLFULL && (0 <? s_afree (v_s v0))); [|eapply FE; eauto].
      destruct HK as (r2 & v2 & t2 & (RO2 & _) & _). destruct D0 as (_ & RT & _). congruence. }
  destruct P1 as [(EQ1 & MK1 & X1)|((e & -> & BD) & D1 & T1)].
  2:{ right. destruct H2 as (-> & -> & ->). eauto. }
  unfold pbind at 1. rewrite EQ1. clearbody part1. destruct r1 as [a|e]; [|destruct H2 as (-> & -> & ->); auto].
  destruct X1 as (W' & Cm & HR & HV1 & RO1 & PM & T1 & SQ1). destruct H2 as (t2 & H2 & ->).
  destruct (has (v_mask v1) ev) eqn:HE.
  - rewrite MK1 in HE. destruct H2 as (r2 & v2 & t3 & HT2 & H2).
    destruct (transact_flt v1 W' Cm o2 P r2 v2 t3 HV1 ltac:(lia) PM (PE a W' HE HR) HT2) as [EQ2|(-> & D2 & T2)].
    + left. unfold pbind. rewrite EQ2. destruct r2 as [[]|e].
      * destruct H2 as (t4 & H2 & ->). injection H2 as <- <- <-. reflexivity.
      * destruct H2 as (-> & -> & ->). reflexivity.
    + right. destruct H2 as (-> & -> & ->). split; [eauto|]. rewrite MK1 in D2. split; auto. apply TR_app; auto.
  - left. injection H2 as <- <- <-. reflexivity.
Qed.

(** ** Format *)
Lemma core_incl {A} (m : M st A) (F : MF st A) v r v' t : (forall x, F x (fst (m x)) (snd (m x))) -> core m v = (r, v', t) -> fcore F v r v' t.
Proof using. clear. intros H. unfold core. specialize (H (v_s v)). destruct (m (v_s v)) as [r1 s1]. intros K; injection K as <- <- <-. exists s1. auto. Qed.
Notation MS := (FsFormat.MS good g atom).
Notation CRo := (FsFormat.CRo good g atom).
Notation TRo := (FsFormat.TRo good g atom).
(** A device that holds one of the states of P (None: not formatted). *)
Definition DVo (P : option fs -> Prop) (d : dev) : Prop :=
  CRo P d /\ forall d2, part d d2 -> stable d2 -> exists X, P X /\ MS d2 X.
Definition lift_ (P : fs -> Prop) (Y : option fs) : Prop := exists X, P X /\ Y = Some X.
Lemma DVo_imp (P Q : option fs -> Prop) d : (forall X, P X -> Q X) -> DVo P d -> DVo Q d.
Proof using.
  intros H (A & B). split.
  - intros d' L. destruct (A d' L) as (X & HP & HC). eauto.
  - intros d2 M S. destruct (B d2 M S) as (X & HP & HC). eauto.
Qed.
Lemma DV_DVo (P : fs -> Prop) wr d : DV P wr d -> DVo (lift_ P) d.
Proof using.
  intros D. destruct (D d (mayhap_refl _ _)) as (A & N & B). split.
  - intros d' L. destruct (A d' L) as (X & HP & HC). exists (Some X). split; [exists X; auto|exact HC].
  - intros d2 M (S1 & S2). pose proof M as (_ & _ & _ & _ & M5 & _). destruct S2 as [S2|S2]; [congruence|]. destruct (B d2 M S2) as (X & HP & HC). exists (Some X). split; [exists X; auto|exact HC].
Qed.
Lemma MS_part d d1 X : MS d X -> part d d1 -> MS d1 X.
Proof. destruct X as [C|]; cbn; [apply CS_part|]. intros (A & B) (_ & _ & _ & _ & E1 & E2). split; [congruence|]. destruct E2; congruence. Qed.
Lemma MS_DVo (P : option fs -> Prop) d X : MS d X -> P X -> DVo P d.
Proof.
  intros H HP. split; [eapply (MS_CRo good g OK); eauto|]. intros d2 M _. exists X. split; auto. eapply MS_part; eauto.
Qed.
Lemma DVo_part P d d1 : DVo P d -> part d d1 -> DVo P d1.
Proof using.
  intros (A & B) M. split.
  - intros d' L. apply A. eapply part_lose; eauto.
  - intros d2 M2. apply B. eapply part_trans; eauto.
Qed.
Lemma nomst_DVo (P : option fs -> Prop) d : P None -> nomst d -> DVo P d.
Proof. intros HP H. apply (MS_DVo P d None); auto. Qed.
Lemma fpbind_cases {A B} (F : FPV A) (K : A -> FPV B) (m : PV A) (k : A -> PV B) v r v' t (Eb : errno -> Prop) (Bad : vol -> list snap -> Prop) :
  fpbind F K v r v' t ->
  (forall r1 v1 t1, F v r1 v1 t1 -> m v = (r1, v1, t1) \/ (exists e, r1 = Err e /\ Eb e) /\ Bad v1 t1 \/ exists a, r1 = Ok a /\ forall r v' t2, ~ K a v1 r v' t2) ->
  (forall a v1 t1 r v' t2, m v = (Ok a, v1, t1) -> K a v1 r v' t2 -> k a v1 = (r, v', t2) \/ (exists e, r = Err e /\ Eb e) /\ Bad v' (t1 ++ t2)) ->
  pbind m k v = (r, v', t) \/ (exists e, r = Err e /\ Eb e) /\ Bad v' t.
Proof using.
  clear. intros (r1 & v1 & t1 & H1 & H2) HF HK. unfold pbind. destruct (HF _ _ _ H1) as [E|[((e & -> & EB) & B1)|(a & -> & NK)]].
  - rewrite E. destruct r1 as [a|e].
    + destruct H2 as (t2 & H2 & ->). destruct (HK a v1 t1 r v' t2 E H2) as [->|X]; auto.
    + left. destruct H2 as (-> & -> & ->). auto.
  - right. destruct H2 as (-> & -> & ->). eauto.
  - destruct H2 as (t2 & H2 & ->). destruct (NK _ _ _ H2).
Qed.
(** [F] has the runs of [m] and failed ones, which leave the volume read-only. *)
Definition fltf {A} (bad : res A -> Prop) (m : M st A) (F : MF st A) : Prop :=
  ws m /\ (forall x, F x (fst (m x)) (snd (m x))) /\
  forall x r x', F x r x' -> (s_res x = false -> s_res x' = false) /\ (m x = (r, x') \/ bad r /\ s_ro x' = true).
Lemma fltw_fltf {A} (bad : res A -> Prop) m (F : MF st A) : fltw bad m F -> fltf bad m F.
Proof using.
  clear. intros (W & I & H). split; auto. split; auto. intros x r x' R. destruct (H x r x' R) as (A1 & [A2|(A2 & A3 & _)]); auto.
Qed.
(** The state of a volume after a failed format. *)
Definition FB (mask : N) (P : option fs -> Prop) (v : vol) (t : list snap) : Prop :=
  v_mnt v = false /\ s_res (v_s v) = false /\ v_mask v = mask /\ DVo P (v_d v) /\ TRo P t.
Definition nomsts (t : list snap) : Prop := Forall (fun sn : snap => forall d, sn d -> nomst d) t.
Lemma nomsts_TRo (P : option fs -> Prop) t : P None -> nomsts t -> TRo P t.
Proof using. intros HP. apply Forall_impl. intros sn H d Hd. destruct (H d Hd). apply (CRo_none good g atom); auto. Qed.
(** After the master block has been invalidated. *)
Ltac nsn := unfold nomsts; repeat apply Forall_cons; try apply Forall_nil; intros ? Hd; first [destruct Hd as (_ & _ & _ & ? & ?); split; cbn in *; congruence | subst; split; cbn; congruence].
Lemma transact_nomst o v r v' t : nomst (v_d v) -> TransactF o v r v' t ->
  (FsVolume.RedVolTransact o v = (r, v', t) \/ r = Err EIO) /\ v_mnt v' = v_mnt v /\ s_res (v_s v') = s_res (v_s v) /\ v_mask v' = v_mask v /\ nomst (v_d v') /\ nomsts t.
Proof using.
  clear. intros (N1 & N2) (RO & [E|(B & -> & H)]).
  - split; auto. revert E. unfold FsVolume.RedVolTransact. destruct (negb (s_br (v_s v))); [|destruct (UINT64_MAX <=? v_seq v + fst o)]; intros Q; injection Q as <- <- <-;
      (split; [reflexivity|]; split; [reflexivity|]; split; [reflexivity|]; split; [split; auto|nsn]).
  - split; auto. cbv zeta in H. destruct H as [(d & (_ & _ & _ & E1 & E2) & -> & ->)|(_ & x & d3 & _ & HD & -> & ->)]; cbn [v_mnt v_s v_mask v_d s_res set_ro set_afree set_w].
    + split; [reflexivity|]. split; [reflexivity|]. split; [reflexivity|]. split; [split; congruence|nsn].
    + split; [reflexivity|]. split; [reflexivity|]. split; [reflexivity|]. split; [destruct HD as [->| ->]; split; auto|].
      destruct HD as [->| ->]; nsn.
Qed.
Lemma formatbody_flt (bad : res unit -> Prop) (Eb : errno -> Prop) mk mkF F0 v (P0 : option fs -> Prop) o1 o2 r v' t : fltf bad mk mkF -> (forall e, bad (Err e) -> Eb e) -> Eb EIO -> good F0 ->
  (forall D s, FSV (format_mr g) D (fun _ => None) s -> exists s', mk s = (Ok tt, s') /\ FSV (format_mr g) D F0 s' /\ (s_w s' <> s_w s)) ->
   v_mnt v = false -> s_res (v_s v) = false -> s_afree (v_s v) = 0 -> DVo P0 (v_d v) ->
  v_seq v + fst o1 + fst o2 + 3 <= UINT64_MAX -> FormatBody g atom mkF o1 o2 v r v' t ->
  pbind (format_pre g mk o1 o2) (fun _ => format_fin) v = (r, v', t) \/ (exists e, r = Err e /\ Eb e) /\ FB (v_mask v) (fun Y => P0 Y \/ Y = None \/ Y = Some F0) v' t.
Proof.
  intros (WM & HI & HF) BE EE GF MK MN RS AF HD RM H. set (P := fun Y => P0 Y \/ Y = None \/ Y = Some F0).
  destruct (format_pre_gen good g OK atom mk F0 v o1 o2 WM GF MK MN RS AF RM) as (v5 & t5 & E5 & A1 & A2 & A3 & A4 & A5 & A6 & A7 & A8 & A9 & A10 & _).
  assert (PN : P None) by (right; auto).
  assert (T0 : forall y, y = d_mst (v_d v) \/ y = None -> forall d, part (dwmst y (v_d v)) d -> DVo P d).
  { intros y [->| ->] d M.
    - apply (DVo_imp P0); [left; auto|]. apply (DVo_part P0 (v_d v)); auto.
    - destruct HD as (HC & _). split.
      + intros d' L. destruct (format_first good g OK atom P0 (v_d v) HC d') as (X & PX & MX); [eapply part_lose; eauto|]. exists X. split; auto. destruct PX; [left|right]; auto.
      + intros d2 M2 (S1 & _). exists None. split; auto. pose proof (part_trans _ _ _ M M2) as (_ & _ & _ & _ & E1 & _). cbn in E1. split; congruence. }
  (* after the first step *)
  set (NV := fun (u : vol) (w : list snap) => v_mnt u = false /\ s_res (v_s u) = false /\ v_mask u = v_mask v /\ nomst (v_d u) /\ nomsts w).
  assert (NVB : forall u w t0, TRo P t0 -> NV u w -> FB (v_mask v) P u (t0 ++ w)).
  { intros u w t0 HT (B1 & B2 & B3 & B4 & B5). split; auto. split; auto. split; auto. split; [apply nomst_DVo; auto|]. apply Forall_app. split; auto. apply nomsts_TRo; auto. }
  assert (TT0 : TRo P [eq (dwmst None (v_d v)); eq (dflush (dwmst None (v_d v)))]).
  { repeat constructor; intros d <-.
    - apply (T0 None); auto. apply part_refl.
    - apply (T0 None); auto. apply part_flush. }
  unfold FormatBody in H. eapply fpbind_cases; [exact H| |].
  - (* the first part *)
    intros r1 v1 t1 H1.
    assert (Z : format_pre g mk o1 o2 v = (r1, v1, t1) \/ (exists e, r1 = Err e /\ Eb e) /\ FB (v_mask v) P v1 t1); [|destruct Z; auto].
    unfold format_pre. eapply fpbind_cases; [exact H1| |].
    + intros r2 v2 t2 [E|(-> & y & d & HY & M & -> & ->)]; auto. right. left. split; [eauto|].
      assert (Y : y = d_mst (v_d v) \/ y = None) by intuition. split; [exact MN|]. split; [exact RS|]. split; [reflexivity|]. split; [apply (T0 y); auto|].
      repeat constructor. intros d' M'. apply (T0 y Y d' M').
    + intros [] v2 t2 r3 v3 t3 E2 H2. unfold FsVolume.write_master in E2. injection E2 as <- <-.
      assert (Z : pbind (pmod (fun v => vset_s (mkSt (d_blk (v_d v)) (fun _ => false) (format_mr g) (s_c (v_s v)) (s_afree (v_s v)) true false (s_res (v_s v))) v)) (fun _ => pbind (FsVolume.RedVolTransact o1) (fun _ =>
         pbind (core mk) (fun _ => FsVolume.RedVolTransact o2))) (vset_d (dflush (dwmst None (v_d v))) v) = (r3, v3, t3) \/ (exists e, r3 = Err e /\ Eb e) /\ NV v3 t3).
      2:{ destruct Z as [Z|(Z1 & Z2)]; auto. }
      eapply fpbind_cases; [exact H2|intros; left; auto|]. clear H2.
      intros [] v2 t2 r4 v4 t4 E2 H2. injection E2 as <- <-. cbn [app].
      set (u0 := vset_s _ _) in H2 |- *. assert (U0 : NV u0 []) by (repeat split; auto; constructor). clearbody u0.
      eapply fpbind_cases; [exact H2| |]; clear H2.
      * intros r1' v1' t1' HT. destruct U0 as (B1 & B2 & B3 & B4 & _). destruct (transact_nomst _ _ _ _ _ B4 HT) as (C1 & C2 & C3 & C4 & C5 & C6).
        destruct C1 as [C1| ->]; auto. right. left. split; [eauto|]. repeat split; try congruence; auto; apply C5.
      * intros [] u1 w1 r5 u5 w5 E1 H2.
        assert (U1 : NV u1 w1).
        { destruct U0 as (B1 & B2 & B3 & B4 & _). destruct H2 as (r6 & u6 & w6 & H6 & _). 
          revert E1. unfold FsVolume.RedVolTransact. destruct (negb (s_br (v_s u0))); [|destruct (UINT64_MAX <=? v_seq u0 + fst o1)]; intros Q; try discriminate Q; injection Q as <- <-;
            (destruct B4 as (N1 & N2); split; [auto|split; [auto|split; [auto|split; [split; auto|nsn]]]]). }
        assert (Z : pbind (core mk) (fun _ => FsVolume.RedVolTransact o2) u1 = (r5, u5, w5) \/ (exists e, r5 = Err e /\ Eb e) /\ NV u5 w5).
        2:{ destruct Z as [Z|(Z1 & Z2)]; auto. right. split; auto. destruct U1 as (_ & _ & _ & _ & D1), Z2 as (Y1 & Y2 & Y3 & Y4 & Y5). repeat split; auto; try apply Y4. apply Forall_app; auto. }
        assert (CO : forall rr uu ww, fcore mkF u1 rr uu ww -> NV uu ww).
        { intros rr uu ww (s' & RR & -> & ->). destruct U1 as (B1 & B2 & B3 & (N1 & N2) & _). destruct (HF _ _ _ RR) as (RR2 & _). cbn.
          repeat split; auto; try congruence. repeat constructor; destruct H0 as (_ & _ & _ & E3 & E4); congruence. }
        eapply fpbind_cases; [exact H2| |]; clear H2.
        -- intros r6 u6 w6 HC. pose proof (CO _ _ _ HC) as NC. destruct HC as (s' & RR & -> & ->). destruct (HF _ _ _ RR) as (_ & [E|(BD & RO)]).
           ++ left. unfold core. rewrite E. reflexivity.
           ++ right. destruct r6 as [[]|e]; [right|left; split; [eauto|exact NC]]. exists tt. split; auto. intros r7 u7 w7 (RO' & _). cbn in RO'. congruence.
        -- intros [] u2 w2 r6 u6 w6 E2 HT. assert (NC : NV u2 w2).
           { apply (CO (Ok tt)). eapply core_incl; eauto. }
           destruct NC as (B1 & B2 & B3 & B4 & B5). destruct (transact_nomst _ _ _ _ _ B4 HT) as (C1 & C2 & C3 & C4 & C5 & C6).
           destruct C1 as [C1| ->]; auto. right. split; [eauto|]. repeat split; try congruence; try apply C5. apply Forall_app; auto.
  - (* the master block *)
    intros [] v1 t1 r2 v2 t2 E1 H2. rewrite E5 in E1. injection E1 as <- <-. unfold format_fin. destruct (N.eqb_spec (v_seq v5) UINT64_MAX); [lia|].
    assert (T5 : TRo P (eq (dwmst None (v_d v)) :: t5)).
    { apply Forall_cons; [inversion TT0; auto|]. apply nomsts_TRo; auto. }
    assert (T1 : forall y, y = Some (v_seq v5) \/ y = None -> forall d, part (dwmst y (v_d v5)) d -> DVo P d).
    { intros y [->| ->] d M.
      - split.
        + intros d' L. destruct (format_last good g OK atom F0 (v_d v5) (v_seq v5) A6 A7 A8 A9 d') as (X & PX & MX); [eapply part_lose; eauto|]. exists X. split; auto. right; auto.
        + intros d2 M2 (S1 & _). pose proof (part_trans _ _ _ M M2) as (Y1 & Y2 & Y3 & Y4 & Y5 & Y6). cbn in Y5.
          exists (Some F0). split; [right; auto|]. destruct A9 as (i & q & m & mq & (S3 & S4 & S5 & S6) & Q & M1 & M3 & MQ & F & W & U).
          apply (CS_intro good g OK atom d2 F0 i q m mq (d_blk (v_d v5))); auto; try (cbn in *; congruence).
          * unfold SLOTS. cbn in *. rewrite !Y3. split; auto. split; [destruct (Y4 i) as [->| ->]; rewrite ?A8; auto|]. split; auto. destruct (Y4 (negb i)) as [->| ->]; rewrite ?A8; auto.
          * intros b Hb. split; [destruct (Y2 b) as [->|]; auto; cbn; auto|apply Y1].
      - apply nomst_DVo; auto. destruct M as (_ & _ & _ & _ & E1 & E2). cbn in E1, E2. destruct A6 as (N1 & N2). split; [auto|]. destruct E2; congruence. }
    assert (Z : pbind (FsVolume.write_master (Some (v_seq v5))) (fun _ => pmod (fun v => vset_seq (v_seq v5 + 1) v)) v5 = (r2, v2, t2) \/ (exists e, r2 = Err e /\ Eb e) /\ FB (v_mask v) P v2 t2).
    2:{ destruct Z as [Z|(Z1 & Z2 & Z3 & Z4 & Z5 & Z6)]; auto. right. split; auto. split; auto. split; auto. split; auto. split; auto. apply Forall_app; auto. }
    eapply fpbind_cases; [exact H2| |].
    + intros r3 v3 t3 [E|(-> & y & d & HY & M & -> & ->)]; auto. right. left. split; [eauto|].
      assert (Y : y = Some (v_seq v5) \/ y = None). { destruct A6 as (N1 & N2). rewrite N1 in HY. intuition. }
      split; [exact A1|]. split; [exact A2|]. split; [exact A3|]. split; [apply (T1 y); auto|].
      repeat constructor. intros d' M'. apply (T1 y Y d' M').
    + intros [] v3 t3 r4 v4 t4 E3 H3. left. unfold fpure, pmod in H3 |- *. unfold FsVolume.write_master in E3. injection E3 as <- <-. exact H3.
Qed.

Lemma format_flt (bad : res unit -> Prop) (Eb : errno -> Prop) mk mkF F0 v (P0 : option fs -> Prop) o1 o2 r v' t : fltf bad mk mkF -> (forall e, bad (Err e) -> Eb e) -> Eb EIO -> good F0 ->
  (forall D s, FSV (format_mr g) D (fun _ => None) s -> exists s', mk s = (Ok tt, s') /\ FSV (format_mr g) D F0 s' /\ (s_w s' <> s_w s)) ->
   v_mnt v = false -> s_res (v_s v) = false -> s_afree (v_s v) = 0 -> DVo P0 (v_d v) ->
  v_seq v + fst o1 + fst o2 + 3 <= UINT64_MAX -> FltVolume.RedVolFormatWith g atom mkF o1 o2 v r v' t ->
  FsVolume.RedVolFormatWith g mk o1 o2 v = (r, v', t) \/ (exists e, r = Err e /\ Eb e) /\ FB (v_mask v) (fun Y => P0 Y \/ Y = None \/ Y = Some F0) v' t.
Proof.
  intros HM BE EE GF MK MN RS AF HD RM. unfold FltVolume.RedVolFormatWith. rewrite MN. set (P := fun Y => P0 Y \/ Y = None \/ Y = Some F0).
  rewrite (format_split g), MN. intros [(-> & -> & ->)|[H|(-> & H)]].
  - right. split; [eauto|]. split; [auto|]. split; [auto|]. split; [auto|]. split; [|constructor]. apply (DVo_imp P0); auto. left. auto.
  - exact (formatbody_flt bad Eb mk mkF F0 v P0 o1 o2 r v' t HM BE EE GF MK MN RS AF HD RM H).
  - right. split; [eauto|]. destruct (formatbody_flt bad Eb mk mkF F0 v P0 o1 o2 (Ok tt) v' t HM BE EE GF MK MN RS AF HD RM H) as [E|((e & E & _) & _)]; [|discriminate E].
    destruct HD as (HC & _). destruct HM as (WM & _). destruct (format_genP good g OK atom mk F0 v P0 o1 o2 WM GF MK MN RS AF HC RM) as (v1 & t1 & E1 & B1 & B2 & B3 & B4 & B5 & B6).
    rewrite (format_split g), MN, E in E1. injection E1 as <- <-. split; [auto|]. split; [auto|]. split; [auto|]. split; [|exact B6]. apply (MS_DVo P _ (Some F0)); auto. right; auto.
Qed.

(** ** The runs without failures are among those with failures *)
Lemma transact_incl o v r v' t : s_ro (v_s v) = false -> FsVolume.RedVolTransact o v = (r, v', t) -> FltVolume.RedVolTransact atom o v r v' t.
Proof using. clear. intros. split; auto. Qed.
Lemma autocommit_incl {A} (m : M st A) (F : MF st A) R E ev o1 o2 v W C r v' t : OPS False m R E -> (forall x, F x (fst (m x)) (snd (m x))) -> VI v W C ->
  v_seq v + fst o1 + fst o2 + 2 <= UINT64_MAX ->
  FsVolume.autocommit ev m o1 o2 v = (r, v', t) -> autocommit atom ev F o1 o2 v r v' t.
Proof.
  intros HO HI HV RM. unfold FsVolume.autocommit, autocommit, guard, fguard.
  assert (MN : v_mnt v = true) by (destruct HV as (? & ? & X); apply X). rewrite MN. cbn [negb].
  destruct (s_ro (v_s v)) eqn:RO; [intros K; injection K as <- <- <-; auto|].
  unfold pbind at 1. unfold pcatch at 1.
  destruct (core_ok good g OK atom False m R E v W C HO HV RO) as (r0 & v0 & t0 & EQ & MK0 & SQ0 & X0). rewrite EQ. pose proof (core_incl m F v r0 v0 t0 HI EQ) as F0.
  assert (END : forall a v1 t1 W1 C1, VI v1 W1 C1 -> s_ro (v_s v1) = false -> 
    fpcatch (fcore F) (fun r v => match r with
      | Err ENOSPC => if has (v_mask v) T_VOLFULL && (0 <? s_afree (v_s v)) then fpbind (FltVolume.RedVolTransact atom o1) (fun _ => fcore F) v else fpure (pfail ENOSPC) v
      | Err e => fpure (pfail e) v | Ok a => fpure (pret a) v end) v (Ok a) v1 t1 ->
    (let '(r2, v2, t2) := (if has (v_mask v1) ev then pbind (FsVolume.RedVolTransact o2) (fun _ => pret a) v1 else pret a v1) in (r2, v2, t1 ++ t2)) = (r, v', t) ->
    fpbind (fpcatch (fcore F) (fun r v => match r with
      | Err ENOSPC => if has (v_mask v) T_VOLFULL && (0 <? s_afree (v_s v)) then fpbind (FltVolume.RedVolTransact atom o1) (fun _ => fcore F) v else fpure (pfail ENOSPC) v
      | Err e => fpure (pfail e) v | Ok a => fpure (pret a) v end))
      (fun a v => if has (v_mask v) ev then fpbind (FltVolume.RedVolTransact atom o2) (fun _ => fpure (pret a)) v else fpure (pret a) v) v r v' t).
  { intros a v1 t1 W1 C1 HV1 RO1 H1 K. exists (Ok a), v1, t1. split; auto. destruct (has (v_mask v1) ev).
    - unfold pbind in K. destruct (FsVolume.RedVolTransact o2 v1) as [[r2 v2] t2] eqn:TT. pose proof (transact_incl _ _ _ _ _ RO1 TT) as TF.
      destruct r2 as [[]|e]; cbn in K; injection K as <- <- <-.
      + eexists. split; [|reflexivity]. exists (Ok tt), v2, t2. split; auto. exists []. split; [reflexivity|reflexivity].
      + eexists. split; [|reflexivity]. exists (Err e), v2, t2. auto.
    - cbn in K. injection K as <- <- <-. exists []. split; [reflexivity|reflexivity]. }
  destruct r0 as [a|e].
  - destruct X0 as (W' & _ & HV0 & RO0 & _). unfold pret at 1. intros K. eapply END; eauto. exists (Ok a), v0, t0, []. split; auto. split; [reflexivity|reflexivity].
  - destruct X0 as [[[] _]|(_ & HV0 & RO0 & _)].
    assert (FE : forall e', e' = e -> (forall w, (match e with ENOSPC => if has (v_mask v0) T_VOLFULL && (0 <? s_afree (v_s v0)) then fpbind (FltVolume.RedVolTransact atom o1) (fun _ => fcore F) v0 else fpure (pfail ENOSPC) v0
       | e => fpure (pfail e) v0 end) (Err e') v0 w <-> w = []) -> (Err e', v0, t0 ++ []) = (r, v', t) -> 
       fpbind (fpcatch (fcore F) (fun r v => match r with
      | Err ENOSPC => if has (v_mask v) T_VOLFULL && (0 <? s_afree (v_s v)) then fpbind (FltVolume.RedVolTransact atom o1) (fun _ => fcore F) v else fpure (pfail ENOSPC) v
      | Err e => fpure (pfail e) v | Ok a => fpure (pret a) v end))
      (fun a v => if has (v_mask v) ev then fpbind (FltVolume.RedVolTransact atom o2) (fun _ => fpure (pret a)) v else fpure (pret a) v) v r v' t).
    { intros e' -> HK K. injection K as <- <- <-. exists (Err e), v0, (t0 ++ []). split; [|auto]. exists (Err e), v0, t0, []. split; auto. split; [|auto]. apply HK. auto. }
    destruct (errno_eq_dec e ENOSPC) as [->|Ne].
    + destruct (has (v_mask v0) T_VOLFULL && (0 <? s_afree (v_s v0))) eqn:CD.
      2:{ apply FE; auto. intros w. split; [intros Q; injection Q as <-; auto|intros ->; reflexivity]. }
      unfold pbind at 1. destruct (transact_ok good g OK atom v0 W C o1 (fun _ => True) HV0 ltac:(lia) Logic.I Logic.I) as (v2 & t2 & EQ2 & HV2 & RO2 & MK2 & _ & SQ2 & _).
      rewrite EQ2. pose proof (transact_incl _ _ _ _ _ RO0 EQ2) as F2.
      destruct (core_ok good g OK atom False m R E v2 W W HO HV2 ltac:(congruence)) as (r3 & v3 & t3 & EQ3 & MK3 & SQ3 & X3). rewrite EQ3.
      pose proof (core_incl m F v2 r3 v3 t3 HI EQ3) as F3.
      assert (PC : fpcatch (fcore F) (fun r v => match r with
        | Err ENOSPC => if has (v_mask v) T_VOLFULL && (0 <? s_afree (v_s v)) then fpbind (FltVolume.RedVolTransact atom o1) (fun _ => fcore F) v else fpure (pfail ENOSPC) v
        | Err e => fpure (pfail e) v | Ok a => fpure (pret a) v end) v r3 v3 (t0 ++ t2 ++ t3)).
      { exists (Err ENOSPC), v0, t0, (t2 ++ t3). split; auto. split; [|auto]. rewrite CD. exists (Ok tt), v2, t2. split; auto. exists t3. auto. }
      destruct r3 as [a|e].
      * destruct X3 as (W' & _ & HV3 & RO3 & _). intros K. eapply END; eauto.
      * intros K. injection K as <- <- <-. exists (Err e), v3, (t0 ++ t2 ++ t3). auto.
    + intros K. apply (FE e); auto.
      * intros w. destruct e; try congruence; (split; [intros Q; injection Q as <-; auto|intros ->; reflexivity]).
      * destruct e; try congruence; exact K.
Qed.

Lemma fpbind_incl {A B} (F : FPV A) (K : A -> FPV B) (m : PV A) (k : A -> PV B) v r v' t : pbind m k v = (r, v', t) ->
  (forall r1 v1 t1, m v = (r1, v1, t1) -> F v r1 v1 t1) -> (forall a v1 t1 r v' t, m v = (Ok a, v1, t1) -> k a v1 = (r, v', t) -> K a v1 r v' t) -> fpbind F K v r v' t.
Proof using.
  clear. unfold pbind. intros E HF HK. destruct (m v) as [[r1 v1] t1] eqn:EM. exists r1, v1, t1. split; [auto|]. destruct r1 as [a|e].
  - destruct (k a v1) as [[r2 v2] t2] eqn:EK. injection E as <- <- <-. exists t2. split; eauto.
  - injection E as <- <- <-. auto.
Qed.
Lemma format_incl (bad : res unit -> Prop) mk mkF F0 v o1 o2 r v' t : fltf bad mk mkF -> good F0 ->
  (forall D s, FSV (format_mr g) D (fun _ => None) s -> exists s', mk s = (Ok tt, s') /\ FSV (format_mr g) D F0 s' /\ (s_w s' <> s_w s)) ->
   v_mnt v = false -> s_res (v_s v) = false -> s_afree (v_s v) = 0 ->
  v_seq v + fst o1 + fst o2 + 3 <= UINT64_MAX -> FsVolume.RedVolFormatWith g mk o1 o2 v = (r, v', t) -> FltVolume.RedVolFormatWith g atom mkF o1 o2 v r v' t.
Proof.
  intros (WM & HI & _) GF MK MN RS AF RM. rewrite (format_split g), MN. intros H. unfold FltVolume.RedVolFormatWith. rewrite MN. right. left.
  destruct (format_pre_gen good g OK atom mk F0 v o1 o2 WM GF MK MN RS AF RM) as (v5 & t5 & E5 & _ & _ & _ & _ & _ & _ & _ & _ & _ & _ & u & w & E3 & RO3).
  remember (eq (dwmst None (v_d v)) :: t5) as t6 eqn:ET. clear ET.
  unfold FormatBody. eapply fpbind_incl; [exact H| |].
  - intros r1 v1 t1 H1. rewrite E5 in H1. injection H1 as <- <- <-. unfold format_pre in E5. unfold format_pre3 in E3. clear H.
    (* the read-only flag is clear where RedVolTransact is called *)
    eapply fpbind_incl; [exact E5|intros; left; auto|]. clear E5. intros [] u1 w1 r2 u2 w2 EA E2.
    unfold pbind at 1 in E3. rewrite EA in E3. 
    eapply fpbind_incl; [exact E2|intros; auto|]. clear E2. intros [] u3 w3 r4 u4 w4 EB E4.
    unfold pbind at 1 in E3. rewrite EB in E3.
    assert (R0 : s_ro (v_s u3) = false) by (injection EB as <- <-; reflexivity). clear EB.
    eapply fpbind_incl; [exact E4|intros; apply transact_incl; auto|]. clear E4. intros [] u5 w5 r6 u6 w6 EC E6.
    unfold pbind at 1 in E3. rewrite EC in E3.
    eapply fpbind_incl; [exact E6|intros; eapply core_incl; eauto|]. clear E6. intros [] u7 w7 r8 u8 w8 ED E8. apply transact_incl; auto.
    rewrite ED in E3. injection E3 as <- _. exact RO3.
  - intros [] v1 t1 r2 v2 t2 E1 H2. unfold format_fin in H2. destruct (v_seq v1 =? UINT64_MAX); [exact H2|]. eapply fpbind_incl; [exact H2|intros; left; auto|intros; auto].
Qed.
End V.
