(** Specifications of the inode operations on the volume of files. *)
From Verif Require Import Base Count FsState FsImap FsInode FsData FsTree FsImapProof FsWp FsInv FsStep FsSeek FsBranch FsRead FsWrite FsWrite2 FsTrunc FsTrunc2 FsTrunc3 FsTrunc4 FsTrunc5 FsVol.
Ltac Zify.zify_post_hook ::= idtac.

(** Effect of the data operations on a file. *)
Definition awrite (a : afile) (start n : N) (src : N -> N) : afile :=
  mkAf (N.max (a_size a) (start + n)) (a_dir a) (a_nlink a) (a_pino a)
    (fun off => if (start <=? off) && (off <? start + n) then src (off - start) else a_byte a off).
Definition atrunc (a : afile) (size : N) : afile :=
  mkAf size (a_dir a) (a_nlink a) (a_pino a) (fun off => if off <? size then a_byte a off else 0).
Definition anlink (a : afile) (n : N) : afile := mkAf (a_size a) (a_dir a) n (a_pino a) (a_byte a).
Definition apino (a : afile) (n : N) : afile := mkAf (a_size a) (a_dir a) (a_nlink a) n (a_byte a).
Definition anew (isdir : bool) (pino : N) : afile := mkAf 0 isdir 1 pino (fun _ => 0).

Section Vol.
Variable g : cfg.
Hypothesis OK : cfg_ok g.
Set Default Proof Using "OK".
Notation LM := (INODE_SIZE_MAX g).
Notation T := (T g).
Notation lv := (lv g).
Notation FBC := (FreeBlockCount g).

Variable C0 : mroot.
Variable D0 : N -> blk.
Variable R0 : bool.
Notation Core := (Core g C0 D0 R0).
Notation Idle := (Idle g C0 D0 R0).
Notation KT := (KT g C0 D0 R0).
Notation WK := (WK g C0 D0 R0).
Notation WS := (WS g C0 D0 R0).
Notation VP := (VP g C0 D0 R0).
Notation VOL := (VOL g C0 D0 R0).
Notation NewAt := (NewAt g C0 D0 R0).

(** Changes of the slots of one inode. *)
Lemma Core_slots i io L pm s s' :
  Core i io L pm Dnone s -> INODE_IS_VALID g i = true ->
  ImapInv g s' -> s_c s' = s_c s ->
  (forall b, com s b = true -> dk s' b = dk s b) ->
  (forall b, s_wr s' b = true -> s_wr s b = true \/ com s b = false /\ ITAB g <= b < BC g) ->
  s_ro s' = s_ro s -> s_res s' = s_res s -> m_free (s_w s') = m_free (s_w s) -> s_afree s' = s_afree s ->
  (forall b, isslot g i b \/ cur s' b = cur s b /\ dk s' b = dk s b) ->
  cur s' (InodeBlock g i 0) && cur s' (InodeBlock g i 1) = false ->
  m_freei (s_w s') = count (fun i => negb (lv s' i)) 2 (2 + ICNT g) ->
  ((exists x, T s' i = Some x /\ (forall e, e < IE g -> i_ent x e = pm i (P1 e)) /\ Lim g pm i x (i_size x) /\ i_blocks x = nblk g pm i) \/
   (lv s' i = false /\ forall p, pm i p = 0)) ->
  s_br s' = true ->
  Idle pm s'.
Proof.
  intros [K1 K2 K3 K4 K5 K6 K7 K8 K9 K10 K11 [R1 R2 R3] K13 K14 K15] V H1 H2 H3 H4 H5 H6 H7 H7' H8 H9 H10 H11 H12.
  pose proof (valid_iff g OK i) as VI. apply VI in V as Vr.
  assert (Cm : forall b, com s' b = com s b) by (intros; unfold com; congruence).
  assert (F : frI g i s s') by (intros b _; auto).
  assert (P0 : forall p, pm 0 p = 0).
  { intros p. destruct (N.eq_dec (pm 0 p) 0) as [|X]; auto. destruct (t_dom K11 _ _ X) as [Y _]. discriminate. }
  assert (NSl : forall b, FA g <= b -> cur s' b = cur s b /\ dk s' b = dk s b).
  { intros b Hb. destruct (H8 b) as [(_ & w & Hw & E)|]; auto. pose proof (slot_rng g OK i w V Hw). lia. }
  assert (LI : lv s' i = true \/ forall p, pm i p = 0).
  { destruct H11 as [(x & X & _)|[_ X]]; auto. left. eapply (T_lv g OK); eauto. }
  rewrite <- H7, <- H7' in K7.
  constructor; auto; try congruence.
  - intros b Hb. rewrite Cm in Hb. rewrite H3; auto.
  - intros b Hb. rewrite Cm. destruct (H4 b Hb) as [X|X]; auto.
  - intros j Vj. rewrite !Cm. destruct (N.eq_dec j i) as [->|Hn]; [split; [exact H9|apply K8; auto]|].
    destruct (frI_slot g OK i s s' j 0 F Vj ltac:(lia) Hn) as [-> _]. destruct (frI_slot g OK i s s' j 1 F Vj ltac:(lia) Hn) as [-> _]. auto.
  - intros j Hj _. destruct (N.eq_dec j i) as [->|Hn].
    + destruct H11 as [(x & X & _)|[X _]]; [eauto|congruence].
    + rewrite (frI_T g OK i s s') by auto. rewrite (frI_lv g OK i s s') in Hj by auto. auto.
  - destruct K11 as [A1 A2 A3 A4]. constructor; auto.
    + intros j p Hp. destruct (A1 j p Hp) as [X Y]. split; auto.
      destruct (N.eq_dec j i) as [->|Hn]; [destruct LI as [|Z]; auto; now rewrite Z in Hp|]. rewrite (frI_lv g OK i s s'); auto.
    + intros j p Hp. destruct (A2 j p Hp) as [X Y]. split; auto. destruct (NSl (pm j p)) as [-> _]; [lia|auto].
    + intros b Hb Hc. destruct (NSl b) as [E _]; [lia|]. rewrite E in Hc. auto.
  - constructor; auto.
    + intros j x e Hv He _. unfold view in Hv. destruct (N.eqb_spec j 0) as [->|].
      * injection Hv as <-. now rewrite P0.
      * destruct (N.eq_dec j i) as [->|Hn].
        -- destruct H11 as [(y & Y & Z & _)|[X _]]; [rewrite Y in Hv; injection Hv as <-; auto|].
           rewrite (T_lv g OK _ _ _ Hv) in X. discriminate.
        -- rewrite (frI_T g OK i s s') in Hv by auto. apply R1; auto; [|intros [_ []]]. unfold view. destruct (N.eqb_spec j i); congruence.
    + intros j p Hp Hh. destruct (R2 j p Hp Hh) as (o & e & E & HE). exists o, e.
      destruct (t_rng K11 _ _ Hp) as [RG _]. destruct (NSl (pm j p)) as [_ ->]; [lia|].
      split; auto. intros; apply HE; auto. intros [_ []].
  - constructor; [intros p; rewrite P0; congruence|cbn; lia|lia].
  - intros j x Hj _. destruct (N.eq_dec j i) as [->|Hn].
    + destruct H11 as [(y & Y & Z1 & Z2 & Z3)|[X _]]; [rewrite Y in Hj; injection Hj as <-; auto|].
      rewrite (T_lv g OK _ _ _ Hj) in X. discriminate.
    + rewrite (frI_T g OK i s s') in Hj by auto. auto.
Qed.

Lemma Idle_free pm s i : Idle pm s -> i <> 0 -> lv s i = false -> Core i inode0 0 pm Dnone s /\ forall p, pm i p = 0.
Proof.
  intros K Hi HL. pose proof K as [K1 K2 K3 K4 K5 K6 K7 K8 K9 K10 K11 [R1 R2 R3] K13 K14 K15].
  assert (P0 : forall p, pm i p = 0).
  { intros p. destruct (N.eq_dec (pm i p) 0) as [|X]; auto. destruct (t_dom K11 _ _ X) as [Y _]. congruence. }
  split; auto. constructor; auto.
  - intros j Hj Hn. apply K9; auto. intros ->. pose proof (lv_valid g OK _ _ Hj). discriminate.
  - constructor; auto.
    + intros j x e Hv He _. unfold view in Hv. destruct (N.eqb_spec j i) as [->|]; [injection Hv as <-; now rewrite P0|].
      apply R1; auto; [|intros [_ []]]. unfold view. destruct (N.eqb_spec j 0) as [->|]; [discriminate|auto].
    + intros j p Hp Hh. destruct (R2 j p Hp Hh) as (o & e & E & HE). exists o, e. split; auto. intros; apply HE; auto. intros [_ []].
  - constructor; [intros p; rewrite P0; congruence|cbn; lia|lia].
  - intros j x Hj _. apply K14; auto. intros ->. discriminate.
Qed.

(** * Write and truncate *)
Lemma VP_WS pm V c os s : VP pm V ((true, c) :: os) s -> c_dirty c = true -> WS (i_size (c_i c)) pm s c.
Proof. intros H D. destruct (VP_WK g OK _ _ _ _ _ _ _ _ H) as [W B]. split; auto. Qed.

Lemma vol_write V c os s start len src :
  VOL V ((true, c) :: os) s -> c_dirty c = true -> 0 < len -> start < LM ->
  (R0 = true -> exists a x, V (c_ino c) = Some a /\ start <= a_size a /\ len <= BS g /\ start / BS g = (start + len - 1) / BS g /\
      x / BS g = start / BS g /\ a_byte a x <> 0) ->
  exists a c' s', V (c_ino c) = Some a /\ cid c c' /\
   ((RedInodeDataWrite g start len src (s, c) = (Err ENOSPC, (s', c')) /\ VOL V ((true, c') :: os) s' /\ FBC s' < MAXCOST g /\ (start <= a_size a -> s' = s)) \/
    exists n, RedInodeDataWrite g start len src (s, c) = (Ok n, (s', c')) /\
      0 < n <= N.min len (LM - start) /\ (n < N.min len (LM - start) -> FBC s' < MAXCOST g) /\
      N.min (N.min len (LM - start)) (BS g - start mod BS g) <= n /\
      VOL (upd V (c_ino c) (Some (awrite a start n src))) ((true, c') :: os) s').
Proof.
  intros (pm & H) HD Hlen Hst HR. pose proof (VP_WS _ _ _ _ _ H HD) as W. pose proof H as (I & _ & _ & _).
  destruct (VP_a g OK _ _ _ _ _ _ _ _ _ H) as (a & Va & E1 & E2 & E3 & E4 & E5). cbn in *.
  assert (SZ : i_size (c_i c) <= LM) by (destruct W as ((K & _) & _); apply (k_lim0 K)).
  assert (RK : rok g R0 start len pm c).
  { intros HR0. destruct (HR HR0) as (a' & x & Ha' & X1 & X2 & X3 & X4 & X5). rewrite Va in Ha'. injection Ha' as <-.
    split; [lia|]. split; [exact X2|]. split; [exact X3|]. rewrite <- X4. intros Z. apply X5. rewrite <- E5. unfold vb.
    destruct (x <? i_size (c_i c)); auto. unfold fbyte, blkc. now rewrite Z. }
  destruct (RedInodeDataWrite_spec g OK C0 D0 R0 _ _ _ _ _ src W Hlen Hst RK)
    as [(pm' & s' & c' & R & W' & S' & FC & BY)|(n & pm' & s' & c' & R & Hn & FC & W' & SZ' & MB & CI & EFx & BY)].
  - destruct S' as (CI & MS & EFx). pose proof CI as (C1 & _). exists a, c', s'. split; [exact Va|]. split; [exact CI|]. left.
    split; [exact R|]. split; [|destruct FC as [FC1 FC2]; split; [exact FC1|intros X; apply FC2; lia]].
    destruct W' as ((K' & M' & W0 & WE) & D' & B').
    assert (ES : i_size (c_i c') = i_size (c_i c)) by apply MS. rewrite <- ES in K'.
    assert (KTx : KT pm' s' c') by (split; [exact K'|split; [exact M'|split; auto]]).
    destruct (EF_frame g OK _ _ _ _ _ _ _ _ _ I EFx) as (F1 & F2 & F3).
    eapply (VOL_veq g OK); [|exists pm'; eapply (VP_upd g OK) with (a := a); [exact H|exact KTx|exact C1| |exact F1|exact F2|exact F3|intros; exact WE|]].
    + intros j. unfold upd. destruct (N.eqb_spec j (c_ino c)) as [->|]; [rewrite Va|]; apply oeq_refl.
    + rewrite <- C1. apply (KT_T g OK _ _ _ _ _ _ KTx D').
    + destruct MS as (M1 & M2 & M3 & M4). repeat split; cbn; try congruence. intros x. rewrite <- E5. unfold vb. rewrite ES.
      destruct (N.ltb_spec x (i_size (c_i c))); auto.
  - pose proof CI as (C1 & _ & _ & _ & C5 & _). exists a, c', s'. split; [exact Va|]. split; [exact CI|]. right. exists n.
    split; [exact R|]. split; [exact Hn|]. destruct FC as [FC FC']. split; [exact FC|]. split; [exact FC'|].
    destruct W' as ((K' & M' & W0 & WE) & D' & B').
    rewrite <- SZ' in K'.
    assert (KTx : KT pm' s' c') by (split; [exact K'|split; [exact M'|split; auto]]).
    destruct (EF_frame g OK _ _ _ _ _ _ _ _ _ I EFx) as (F1 & F2 & F3).
    exists pm'; eapply (VP_upd g OK); [exact H|exact KTx|exact C1| |exact F1|exact F2|exact F3|intros; exact WE|].
    + rewrite <- C1. apply (KT_T g OK _ _ _ _ _ _ KTx D').
    + destruct MB as (M2 & M3 & M4). repeat split; cbn; try congruence. intros x.
      destruct (N.lt_ge_cases x LM) as [L|L].
      * rewrite BY by auto. destruct ((start <=? x) && (x <? start + n)); auto.
      * unfold vb. destruct (N.ltb_spec x (i_size (c_i c'))); [lia|].
        destruct (N.leb_spec start x), (N.ltb_spec x (start + n)); cbn [andb]; try lia; rewrite <- E5; unfold vb; destruct (N.ltb_spec x (i_size (c_i c))); auto; lia.
Qed.

(** A write inside one block.  It is complete, the path to the block is new afterwards, and it is not
    refused (at or before the end of file) when that path is new already. *)
Lemma vol_write1 V c os s start len src :
  VOL V ((true, c) :: os) s -> c_dirty c = true -> 0 < len -> start + len <= LM -> start / BS g = (start + len - 1) / BS g ->
  (R0 = true -> exists a x, V (c_ino c) = Some a /\ start <= a_size a /\ len <= BS g /\ start / BS g = (start + len - 1) / BS g /\
      x / BS g = start / BS g /\ a_byte a x <> 0) ->
  exists a c' s', V (c_ino c) = Some a /\ cid c c' /\
   ((RedInodeDataWrite g start len src (s, c) = (Err ENOSPC, (s', c')) /\ VOL V ((true, c') :: os) s' /\ FBC s' < MAXCOST g /\
       (start <= a_size a -> s' = s /\ ~ NewAt s (c_ino c) (start / BS g))) \/
    RedInodeDataWrite g start len src (s, c) = (Ok len, (s', c')) /\
      VOL (upd V (c_ino c) (Some (awrite a start len src))) ((true, c') :: os) s' /\ NewAt s' (c_ino c) (start / BS g)).
Proof.
  intros (pm & H) HD Hlen Hst Hb HR. pose proof (VP_WS _ _ _ _ _ H HD) as W. pose proof H as (I & _ & _ & _).
  destruct (VP_a g OK _ _ _ _ _ _ _ _ _ H) as (a & Va & E1 & E2 & E3 & E4 & E5). cbn in *.
  assert (SZ : i_size (c_i c) <= LM) by (destruct W as ((K & _) & _); apply (k_lim0 K)).
  assert (RK : rok g R0 start len pm c).
  { intros HR0. destruct (HR HR0) as (a' & x & Ha' & X1 & X2 & X3 & X4 & X5). rewrite Va in Ha'. injection Ha' as <-.
    split; [lia|]. split; [exact X2|]. split; [exact X3|]. rewrite <- X4. intros Z. apply X5. rewrite <- E5. unfold vb.
    destruct (x <? i_size (c_i c)); auto. unfold fbyte, blkc. now rewrite Z. }
  destruct (write_one g OK C0 D0 R0 _ _ _ _ _ src W Hlen Hst Hb RK)
    as [(pm' & s' & c' & R & W' & S' & FC & BY)|(pm' & s' & c' & R & (W' & SZ' & MB & CI & EFx & BY) & NP)].
  - destruct S' as (CI & MS & EFx). pose proof CI as (C1 & _). exists a, c', s'. split; [exact Va|]. split; [exact CI|]. left.
    split; [exact R|]. split; [|destruct FC as [FC1 FC2]; split; [exact FC1|intros X; destruct FC2 as [FC2 FC3]; [lia|]; split; [exact FC2|rewrite (NewAt_pm g OK C0 D0 R0 pm s _ _ I); exact FC3]]].
    destruct W' as ((K' & M' & W0 & WE) & D' & B').
    assert (ES : i_size (c_i c') = i_size (c_i c)) by apply MS. rewrite <- ES in K'.
    assert (KTx : KT pm' s' c') by (split; [exact K'|split; [exact M'|split; auto]]).
    destruct (EF_frame g OK _ _ _ _ _ _ _ _ _ I EFx) as (F1 & F2 & F3).
    eapply (VOL_veq g OK); [|exists pm'; eapply (VP_upd g OK) with (a := a); [exact H|exact KTx|exact C1| |exact F1|exact F2|exact F3|intros; exact WE|]].
    + intros j. unfold upd. destruct (N.eqb_spec j (c_ino c)) as [->|]; [rewrite Va|]; apply oeq_refl.
    + rewrite <- C1. apply (KT_T g OK _ _ _ _ _ _ KTx D').
    + destruct MS as (M1 & M2 & M3 & M4). repeat split; cbn; try congruence. intros x. rewrite <- E5. unfold vb. rewrite ES.
      destruct (N.ltb_spec x (i_size (c_i c))); auto.
  - pose proof CI as (C1 & _ & _ & _ & C5 & _). exists a, c', s'. split; [exact Va|]. split; [exact CI|]. right.
    split; [exact R|].
    destruct W' as ((K' & M' & W0 & WE) & D' & B').
    rewrite <- SZ' in K'.
    assert (KTx : KT pm' s' c') by (split; [exact K'|split; [exact M'|split; auto]]).
    destruct (EF_frame g OK _ _ _ _ _ _ _ _ _ I EFx) as (F1 & F2 & F3).
    assert (TT : T s' (c_ino c) = Some (c_i c')) by (rewrite <- C1; apply (KT_T g OK _ _ _ _ _ _ KTx D')).
    assert (VN : VP pm' (upd V (c_ino c) (Some (awrite a start len src))) ((true, c') :: os) s'); [|split; [exists pm'; exact VN|destruct VN as (I' & _); apply (NewAt_pm g OK C0 D0 R0 pm' s' _ _ I'); exact NP]].
    eapply (VP_upd g OK); [exact H|exact KTx|exact C1|exact TT|exact F1|exact F2|exact F3|intros; exact WE|].
    + destruct MB as (M2 & M3 & M4). repeat split; cbn; try congruence. intros x.
      destruct (N.lt_ge_cases x LM) as [L|L].
      * rewrite BY by auto. destruct ((start <=? x) && (x <? start + len)); auto.
      * unfold vb. destruct (N.ltb_spec x (i_size (c_i c'))); [lia|].
        destruct (N.leb_spec start x), (N.ltb_spec x (start + len)); cbn [andb]; try lia; rewrite <- E5; unfold vb; destruct (N.ltb_spec x (i_size (c_i c))); auto; lia.
Qed.

Lemma vol_trunc V c os s size :
  VOL V ((true, c) :: os) s -> c_dirty c = true -> size <= LM ->
  exists a c' s', V (c_ino c) = Some a /\ cid c c' /\
   ((RedInodeDataTruncate g size (s, c) = (Err ENOSPC, (s', c')) /\ VOL V ((true, c') :: os) s' /\ FBC s < MAXCOST g /\ 0 < size /\
       (size < a_size a -> (forall j l, NewAt s j l -> NewAt s' j l) /\
          forall l, l = (size + BS g - 1) / BS g \/ l + 1 = (size + BS g - 1) / BS g -> ~ NewAt s (c_ino c) l)) \/
    (RedInodeDataTruncate g size (s, c) = (Ok tt, (s', c')) /\
      VOL (upd V (c_ino c) (Some (atrunc a size))) ((false, c') :: os) s')).
Proof.
  intros (pm & H) HD HS. pose proof (VP_WK g OK _ _ _ _ _ _ _ _ H) as [W B]. pose proof H as (I & _ & _ & _).
  destruct (VP_a g OK _ _ _ _ _ _ _ _ _ H) as (a & Va & E1 & E2 & E3 & E4 & E5). cbn in *.
  assert (SZ : i_size (c_i c) <= LM) by (destruct W as (K & _); apply (k_lim0 K)).
  destruct (RedInodeDataTruncate_spec g OK C0 D0 R0 _ _ _ size W B ltac:(auto) HS)
    as [(S0 & FC & pm' & s' & c' & R & KTx & WEx & S' & BY)|(pm' & s' & c' & R & KTx & SZ' & MB & CI & EFx & BY)].
  - destruct S' as [(CI & MS & EFx) FNx]. pose proof CI as (C1 & _ & _ & _ & C5 & _). exists a, c', s'. split; [exact Va|]. split; [exact CI|]. left.
    split; [exact R|].
    assert (ES : i_size (c_i c') = i_size (c_i c)) by apply MS.
    destruct (EF_frame g OK _ _ _ _ _ _ _ _ _ I EFx) as (F1 & F2 & F3).
    assert (VN : VP pm' (upd V (c_ino c) (Some a)) ((true, c') :: os) s');
      [eapply (VP_upd g OK) with (a := a); [exact H|exact KTx|exact C1| |exact F1|exact F2|exact F3|intros _; exact WEx|]|].
    3:{ split; [|split; [exact FC|split; [exact S0|]]].
        - eapply (VOL_veq g OK); [|exists pm'; exact VN]. intros j. unfold upd. destruct (N.eqb_spec j (c_ino c)) as [->|]; [rewrite Va|]; apply oeq_refl.
        - intros LT. destruct FNx as (N1 & N2 & p & N3 & N4 & N5); [lia|]. destruct VN as (I' & _). split.
          + intros j l X. apply (NewAt_pm g OK C0 D0 R0 pm' s' _ _ I'). apply (NewAt_pm g OK C0 D0 R0 pm s _ _ I) in X. intros q Hq. destruct (X q Hq). now apply N1.
          + intros l HL X. apply (NewAt_pm g OK C0 D0 R0 pm s _ _ I) in X.
            assert (OP : onpath g l BD_DATA p).
            { destruct HL as [->|HL]; [destruct N3 as [N3|[N3 N3']]; [left|right; left; split; [|split; [discriminate|]]]; auto|].
              rewrite <- HL in *. replace l with (l + 1 - 1) by lia. apply (path_pred g OK); auto. }
            destruct (X p OP). congruence. }
    + rewrite <- C1. apply (KT_T g OK _ _ _ _ _ _ KTx). congruence.
    + destruct MS as (M1 & M2 & M3 & M4). repeat split; cbn; try congruence. intros x. rewrite <- E5. unfold vb. rewrite ES.
      destruct (N.ltb_spec x (i_size (c_i c))); auto. apply BY. lia.
  - pose proof CI as (C1 & _ & _ & _ & C5 & _). exists a, c', s'. split; [exact Va|]. split; [exact CI|]. right.
    split; [exact R|].
    destruct (EF_frame g OK _ _ _ _ _ _ _ _ _ I EFx) as (F1 & F2 & F3).
    exists pm'; eapply (VP_upd g OK); [exact H|exact KTx|exact C1| |exact F1|exact F2|exact F3|discriminate|].
    + rewrite <- C1. apply (KT_T g OK _ _ _ _ _ _ KTx). congruence.
    + destruct MB as (M2 & M3 & M4). repeat split; cbn; try congruence. intros x. rewrite SZ'.
      destruct (N.lt_ge_cases x LM) as [L|L].
      * rewrite BY by auto. destruct (x <? size); auto.
      * unfold vb at 1. destruct (N.ltb_spec x size); [lia|]. reflexivity.
Qed.

(** Changing the link count or the parent. *)
Lemma vol_iset V b c os s (f : inode -> inode) (h : afile -> afile) :
  VOL V ((b, c) :: os) s -> c_dirty c = true ->
  (forall io, i_ent (f io) = i_ent io) -> (forall io, i_blocks (f io) = i_blocks io) -> (forall io, i_size (f io) = i_size io) ->
  (forall pm s j io, feq (absI g pm s j (f io)) (h (absI g pm s j io))) -> (forall x y, feq x y -> feq (h x) (h y)) ->
  exists a s' c', V (c_ino c) = Some a /\ iset f (s, c) = (Ok tt, (s', c')) /\ cid c c' /\ c_i c' = f (c_i c) /\
    VOL (upd V (c_ino c) (Some (h a))) ((b, c') :: os) s' /\ m_free (s_w s') = m_free (s_w s) /\ s_afree s' = s_afree s.
Proof.
  intros (pm & H) HD F1 F2 F3 F4 F5. pose proof H as (I & HV & HQ & HN).
  destruct (VP_a g OK _ _ _ _ _ _ _ _ _ H) as (a & Va & FE). destruct (HQ _ (or_introl eq_refl)) as (M & HT & W0 & WE). cbn [fst snd] in *.
  destruct (Idle_in g OK _ _ _ _ _ _ _ I HT) as [K NB].
  assert (LI : i_size (c_i c) <= LM) by (pose proof (k_lim0 K) as [_ X Y]; lia).
  assert (KSx : KS g C0 D0 R0 pm Dnone s c) by (split; [|split; auto]; eapply (Core_L OK); [| |exact K]; lia).
  destruct (iset_KT g OK C0 D0 R0 pm s c f KSx W0 F1 (F2 _)) as (KTx & CI & EFx).
  { rewrite F3. auto. } { rewrite F3. apply (k_lim0 K). }
  set (s' := iset_st s c (f (c_i c))) in *. set (c' := cset_i (f (c_i c)) c) in *.
  exists a, s', c'. split; [exact Va|]. split; [apply (iset_run g OK)|]. split; [exact CI|]. split; [reflexivity|].
  split; [|unfold s'; rewrite (iset_w g OK), (iset_afree g OK); auto].
  destruct (EF_frame g OK _ _ _ _ _ _ _ _ _ I (EFx anyb)) as (G1 & G2 & G3).
  exists pm. eapply (VP_upd g OK); [exact H|exact KTx|reflexivity| |exact G1|exact G2|exact G3| |].
  - apply (KT_T g OK _ _ _ _ _ _ KTx HD).
  - intros Hb. exact (WE Hb).
  - change (c_i c') with (f (c_i c)). eapply feq_trans; [apply F4|]. eapply feq_trans; [|apply F5; exact FE]. apply F5.
    repeat split. cbn. intros x. unfold vb. destruct (N.ltb_spec x (i_size (c_i c))); auto.
    eapply (EF_fbyte g OK); [apply (EFx (fun _ => False))|lia|right; tauto].
Qed.
End Vol.
