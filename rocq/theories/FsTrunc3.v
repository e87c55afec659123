(** Truncating file data: double indirect nodes and the whole file. *)
From Verif Require Import Base Count FsState FsImap FsInode FsData FsTree FsImapProof FsWp FsInv FsStep FsSeek FsBranch FsRead FsWrite FsWrite2 FsTrunc FsTrunc2.
Ltac Zify.zify_post_hook ::= idtac.

Section Trunc.
Variable g : cfg.
Hypothesis OK : cfg_ok g.
Set Default Proof Using "OK".
Notation IDB := (INODE_DATA_BLOCKS g).
Variable C0 : mroot.
Variable D0 : N -> blk.
Variable R0 : bool.
Notation Core := (Core g C0 D0 R0).
Notation KS := (KS g C0 D0 R0).
Notation TS := (TS g).
Notation LM := (INODE_SIZE_MAX g).

Lemma dindir_read pm D s c e : KS pm D s c -> pm (c_ino c) (P1 e) <> 0 -> hgt g e = 2 -> (forall k, k < PE g -> ~ D (P2 e k)) ->
  exists f, get_dindir (pm (c_ino c) (P1 e)) s = (Ok f, s) /\ forall k, k < PE g -> f k = pm (c_ino c) (P2 e k).
Proof.
  intros (K & _) Hq Hh HD. destruct (r_node (k_rep K) (c_ino c) (P1 e) Hq) as (o & f & E & HE); [cbn; lia|].
  exists f. split.
  - unfold get_dindir. rewrite E. unfold mknode. cbn [phgt]. rewrite Hh. reflexivity.
  - intros k Hk. apply HE; auto. cbn. intros [_ X]. now apply (HD k).
Qed.

(** something is left in the double indirect node of l before l *)
Definition FBp (pm : pmap) (i l : N) : Prop :=
  (exists d d', co_de g l = Some d /\ d' < d /\ pm i (P2 (co_e g l) d') <> 0) \/
  (exists k, co_ie g l = Some k /\ nzb pm i (pI g l) k).

(** Why a truncation to block [l] was refused: a node above block [l] that keeps blocks before [l]
    is part of the committed state.  Blocks that were new before are still new. *)
Definition FN (pm : pmap) (s : st) (i l : N) (pm' : pmap) (s' : st) : Prop :=
  (forall j p, pm j p <> 0 -> com s (pm j p) = false -> pm' j p <> 0 /\ com s' (pm' j p) = false) /\
  l < INODE_DATA_BLOCKS g /\ exists p, (co_de g l <> None /\ p = pD g l \/ co_ie g l <> None /\ p = pI g l) /\ lfirst g p < l /\ com s (pm i p) = true.
Lemma need_com s b : b <> 0 -> 0 < need s b -> com s b = true.
Proof using. clear. intros H. unfold need. destruct (N.eqb_spec b 0); [contradiction|]. destruct (com s b); auto. cbn. lia. Qed.

Lemma ceil_bounds a b : 0 < b -> 0 < a -> let q := a / b + (if a mod b =? 0 then 0 else 1) in a <= q * b /\ q * b < a + b /\ 0 < q.
Proof using.
  clear. intros Hb Ha q. pose proof (div_eq a b Hb) as E. pose proof (mod_ub a b Hb) as U. unfold q.
  revert E U. generalize (a / b) (a mod b). intros x y E U. destruct (N.eqb_spec y 0).
  - assert (x * b = a) by nia. rewrite N.add_0_r. repeat split; try lia; nia.
  - rewrite N.mul_add_distr_r. assert (x * b + y = a) by nia. lia.
Qed.

Lemma TruncDindir_spec pm s c l de ie :
  KS pm Dnone s c -> CS g pm c l -> c_pb c = false -> l < IDB -> co_de g l = Some de -> co_ie g l = Some ie ->
  (FBp pm (c_ino c) l -> c_dirty c = true) ->
  (FBp pm (c_ino c) l /\ FreeBlockCount g s < MAXCOST g /\ exists pm' s' c', TruncDindir g (s, c) = (Err ENOSPC, (s', c')) /\
     KS pm' Dnone s' c' /\ TS (fun _ => False) pm s c pm' s' c' /\ CW g pm' c' /\ FN pm s (c_ino c) l pm' s') \/
  exists freed pm' D' s' c', TruncDindir g (s, c) = (Ok freed, (s', c')) /\
    KS pm' D' s' c' /\ TS (fun m => l <= m < efirst g (co_e g l) + PE g * PE g) pm s c pm' s' c' /\ c_pb c' = false /\ CW0 g pm' c' /\ c_e c' = co_e g l /\
    (freed = true -> pm' (c_ino c) (P1 (co_e g l)) = 0 /\ forall p, D' p -> p = P1 (co_e g l)) /\
    (freed = false -> forall p, ~ D' p) /\
    (forall q, 0 < phgt g q -> (q = P1 (co_e g l) \/ exists d, q = P2 (co_e g l) d) -> pm' (c_ino c) q <> 0 -> lfirst g q < l) /\
    (forall j q, 0 < phgt g q -> q <> P1 (co_e g l) -> (forall d, q <> P2 (co_e g l) d) -> pm' j q = pm j q).
Proof.
  intros KSx S HPB Hl Hde Hie HDT. set (i := c_ino c) in *. set (e := co_e g l) in *. pose proof KSx as (K & M & HB).
  pose proof (ok_PE g OK) as HP.
  destruct (co_cases g OK l Hl) as [? ? ? ? ? ? ?|? ? ? ? ? ? ? ? ? ? ?|d k Hd Hk LB HE Hh Ed Ei EL EF PI PT]; try congruence.
  rewrite Hde in Ed; injection Ed as <-. rewrite Hie in Ei; injection Ei as <-. fold e in HE, Hh, EL, EF, PI, PT.
  pose proof (s_at _ _ _ _ S) as (A1 & A2 & A3 & A4). rewrite (s_l _ _ _ _ S) in *.
  assert (PD : pD g l = P1 e) by reflexivity.
  assert (Edb : c_db c = pm i (P1 e)) by (apply S; congruence).
  assert (Eib : c_ib c = pm i (P2 e de)) by (rewrite <- PI; apply S; congruence).
  assert (FBE : FBp pm i l <-> (exists d', d' < de /\ pm i (P2 e d') <> 0) \/ nzb pm i (P2 e de) ie).
  { unfold FBp. fold e. rewrite Hde, Hie, PI. split.
    - intros [(d & d' & E & X)|(k & E & X)]; injection E as <-; eauto.
    - intros [(d' & X)|X]; [left; exists de, d'; tauto|right; eauto]. }
  assert (HIE : e < IE g) by lia.
  assert (VP2 : forall d, d < PE g -> vptr g (P2 e d)) by (intros; repeat split; auto; cbn; lia).
  assert (LF2 : forall d, lfirst g (P2 e d) = efirst g e + d * PE g) by (intros; cbn [lfirst]; rewrite Hh; reflexivity).
  assert (REST : forall m, m < IDB -> efirst g e <= m < efirst g e + PE g * PE g ->
     exists d x, d < PE g /\ x < PE g /\ m = efirst g e + d * PE g + x /\ pT g m = P3 e d x).
  { intros m Hm Hr. exists ((m - efirst g e) / PE g), ((m - efirst g e) mod PE g).
    pose proof (div_eq (m - efirst g e) _ HP). pose proof (mod_ub (m - efirst g e) _ HP).
    assert ((m - efirst g e) / PE g < PE g) by (apply N.div_lt_upper_bound; lia).
    assert (EM : m = efirst g e + (m - efirst g e) / PE g * PE g + (m - efirst g e) mod PE g).
    { revert H. generalize ((m - efirst g e) / PE g) ((m - efirst g e) mod PE g). intros; lia. }
    split; [auto|]. split; [auto|]. split; [exact EM|].
    transitivity (pT g (lfirst g (P3 e ((m - efirst g e) / PE g) ((m - efirst g e) mod PE g)))).
    - f_equal. exact EM.
    - apply (data_slot g OK); [repeat split; auto|reflexivity]. }
  destruct (N.eq_dec (pm i (P1 e)) 0) as [Z|NZ].
  { (* no double indirect node *)
    right. exists false, pm, Dnone, s, c.
    assert (Epd : c_pd c = false). { destruct (c_pd c) eqn:E; auto. destruct (s_pd _ _ _ _ S E). congruence. }
    assert (ZC : forall d, d < PE g -> pm i (P2 e d) = 0) by (intros; apply (r_zero (k_rep K) i (P1 e)); auto; cbn; lia).
    split.
    { unfold TruncDindir. unfold bind at 1, getc at 1. cbn [snd]. rewrite (CM_mounted g OK _ _ M), Epd. reflexivity. }
    split; [exact KSx|]. split.
    { apply (TS_refl g OK). fold i. intros m Hm Hr. destruct (REST m Hm) as (d & x & D1 & D2 & _ & ->); [lia|].
      apply (r_zero (k_rep K) i (P2 e d)); auto. cbn; lia. }
    split; [exact HPB|]. split; [apply (CS_CW g OK) in S; apply S|]. split; [exact A2|]. split; [discriminate|]. split; [intros _ p []|].
    split; [|auto]. intros q Hq [->|(d & ->)] X; [congruence|]. destruct (Core_blk OK K X) as (_ & _ & (_ & _ & V) & _). rewrite ZC in X by auto. congruence. }
  assert (Epd : c_pd c = true). { apply S; congruence. }
  destruct (dindir_read pm Dnone s c e KSx NZ Hh) as (f & Rf & Hf); [intros k _ []|]. fold i in Rf, Hf.
  set (ibfb := if f de =? 0 then ret false else e1 <- lift (get_indir (c_ib c)) ;; ret (any_nz e1 (N.to_nat ie)) : MC bool).
  assert (FB : exists fb : bool, (if any_nz f (N.to_nat de) then ret true else ibfb) (s, c) = (Ok fb, (s, c)) /\ (fb = true <-> FBp pm i l)).
  { destruct (any_nz f (N.to_nat de)) eqn:AN.
    - exists true. split; [reflexivity|]. split; [intros _|auto]. rewrite FBE. left. apply (any_nz_spec g OK) in AN. rewrite N2Nat.id in AN.
      destruct AN as (d' & H1 & H2). exists d'. split; auto. rewrite <- Hf by lia. auto.
    - pose proof (any_nz_false g OK _ _ AN) as AZ. rewrite N2Nat.id in AZ.
      assert (NOL : ~ exists d', d' < de /\ pm i (P2 e d') <> 0). { intros (d' & H1 & H2). apply H2. rewrite <- Hf by lia. auto. }
      unfold ibfb. rewrite Hf by auto. destruct (N.eqb_spec (pm i (P2 e de)) 0) as [Z2|NZ2].
      + exists false. split; [reflexivity|]. split; [discriminate|]. rewrite FBE. intros [X|(k & H1 & H2)]; [tauto|].
        exfalso. apply H2. apply (r_zero (k_rep K)); auto; [cbn|]; lia.
      + destruct (indir_read g OK C0 D0 R0 pm Dnone s c (P2 e de) KSx NZ2) as (e1 & R1 & H1); [cbn; lia|intros k _ []|]. fold i in R1, H1.
        exists (any_nz e1 (N.to_nat ie)). split.
        { unfold bind at 1, lift at 1. cbn [fst snd]. rewrite Eib, R1. reflexivity. }
        rewrite (any_nz_spec g OK), N2Nat.id, FBE. split.
        * intros (k & H2 & H3). right. exists k. split; auto. rewrite <- H1 by lia. auto.
        * intros [X|(k & H2 & H3)]; [tauto|]. exists k. split; auto. rewrite H1 by lia. auto. }
  destruct FB as (fb & RFB & EFB).
  set (n := N.min (PE g) ((IDB - efirst g e) / PE g + (if (IDB - efirst g e) mod PE g =? 0 then 0 else 1))).
  assert (RUN : TruncDindir g (s, c) =
    ((if fb then BranchBlock g BD_DINDIR false else ret tt) ;;;
     c1 <- getc ;;
     trunc_dindir_loop g (N.to_nat (N.min (PE g) ((IDB - (c_l c1 - (ie + de * PE g))) / PE g + (if (IDB - (c_l c1 - (ie + de * PE g))) mod PE g =? 0 then 0 else 1)) - de)) de fb (c_l c1) ;;;
     c2 <- getc ;;
     (if fb then ret tt else modc PutDindir ;;; lift (RedImapBlockSet g (c_db c2) false)) ;;;
     ret (negb fb)) (s, c)).
  { unfold TruncDindir. unfold bind at 1, getc at 1. cbn [snd]. rewrite (CM_mounted g OK _ _ M), Epd. cbn [negb].
    unfold bind at 1, lift at 1. cbn [fst snd]. rewrite A3, A4, Hde, Hie, Edb, Rf. cbv beta iota.
    unfold bind at 1. unfold ibfb in RFB. rewrite RFB. reflexivity. }
  assert (OFFE : l - (ie + de * PE g) = efirst g e) by lia.
  assert (NB : de < n /\ n <= PE g /\ efirst g e + n * PE g < IDB + PE g /\ IDB <= efirst g e + n * PE g \/ de < n /\ n = PE g /\ efirst g e + n * PE g < IDB + PE g).
  { destruct (ceil_bounds (IDB - efirst g e) (PE g) HP) as (Q1 & Q2 & Q3); [lia|].
    unfold n. revert Q1 Q2 Q3. generalize ((IDB - efirst g e) / PE g + (if (IDB - efirst g e) mod PE g =? 0 then 0 else 1)). intros q Q1 Q2 Q3.
    assert (de < q). { destruct (N.lt_ge_cases de q); auto. assert (q * PE g <= de * PE g) by (apply N.mul_le_mono_r; auto). lia. }
    destruct (N.le_gt_cases (PE g) q) as [L|L].
    - right. rewrite N.min_l by auto. assert (PE g * PE g <= q * PE g) by (apply N.mul_le_mono_r; auto). lia.
    - left. rewrite N.min_r by lia. lia. }
  assert (NB1 : de < n /\ n <= PE g /\ efirst g e + n * PE g < IDB + PE g) by lia.
  assert (BEY : forall d pm1 D1 s1 c1, KS pm1 D1 s1 c1 -> n <= d -> d < PE g -> pm1 (c_ino c1) (P2 e d) = 0).
  { intros d pm1 D1 s1 c1 K1 Hn Hd'. destruct (N.eq_dec (pm1 (c_ino c1) (P2 e d)) 0) as [|X]; auto. exfalso.
    pose proof (KS_lim g OK _ _ _ _ _ _ _ _ K1 X) as Y. rewrite LF2 in Y.
    destruct NB as [(_ & _ & _ & X2)|(_ & X2 & _)]; [|lia]. assert (n * PE g <= d * PE g) by (apply N.mul_le_mono_r; auto). lia. }
  assert (LEN : efirst g e + (de + N.of_nat (N.to_nat (n - de))) * PE g = efirst g e + n * PE g).
  { rewrite N2Nat.id. do 2 f_equal. lia. }
  assert (WID : forall m, m < IDB -> (l <= m < efirst g e + n * PE g <-> l <= m < efirst g e + PE g * PE g)).
  { intros m Hm. destruct NB as [(_ & X1 & _ & X2)|(_ & -> & _)]; [|tauto].
    assert (n * PE g <= PE g * PE g) by (apply N.mul_le_mono_r; auto). lia. }
  (* after the optional branch *)
  assert (BR : (fb = true /\ (FreeBlockCount g s < MAXCOST g /\ com s (pm i (P1 e)) = true) /\ BranchBlock g BD_DINDIR false (s, c) = (Err ENOSPC, (s, c))) \/
    exists pm1 s1 c1, (if fb then BranchBlock g BD_DINDIR false else ret tt) (s, c) = (Ok tt, (s1, c1)) /\
      KS pm1 Dnone s1 c1 /\ TS (fun _ => False) pm s c pm1 s1 c1 /\ CS g pm1 c1 l /\ c_pb c1 = false /\
      (forall j q, q <> P1 e -> pm1 j q = pm j q) /\ pm1 i (P1 e) <> 0 /\ (fb = true -> com s1 (pm1 i (P1 e)) = false) /\
      (fb = false -> pm1 = pm) /\ FreeBlockCount g s <= FreeBlockCount g s1 + 1).
  { destruct fb.
    - assert (Hdd : c_dirty c = true) by (apply HDT; now apply EFB).
      destruct (BranchBlock_spec g OK C0 D0 R0 LM pm s c l BD_DINDIR false) as [[F1 F2]|(pm1 & s1 & c1 & F1 & F2 & P & ON & OFF & MF & BLK)]; auto.
      { now apply (l_LM g OK). }
      { intros _ p [[X ->]|[(_ & X & _)|[X _]]]; first [exact NZ|congruence]. }
      + left. split; auto. split; auto. pose proof (bcost_max g OK pm s c l BD_DINDIR S). split; [lia|].
        apply need_com; auto. revert F1. unfold bcost, dcost, icost, tcost. rewrite A3, A4, Hde, Hie, Edb. lia.
      + right. exists pm1, s1, c1. fold i in ON, OFF, BLK.
        assert (PB1 : c_pb c1 = false). { pose proof (keepb_Branch g OK BD_DINDIR false ltac:(discriminate) s c HPB) as X. rewrite F2 in X. exact X. }
        assert (EI : c_ino c1 = i) by (apply P).
        assert (K1 : KS pm1 Dnone s1 c1).
        { split; [|split].
          - rewrite EI. exact (ph_core _ _ _ _ _ _ _ _ _ _ _ _ P).
          - exact (ph_cm _ _ _ _ _ _ _ _ _ _ _ _ P).
          - rewrite EI. exact (ph_nb _ _ _ _ _ _ _ _ _ _ _ _ P). }
        assert (OD : onpath g l BD_DINDIR (P1 e)) by (left; split; [congruence|auto]).
        destruct (ON _ OD) as [N1 N2].
        assert (OO : forall j q, q <> P1 e -> pm1 j q = pm j q).
        { intros j q Hq. apply OFF. intros [[X Y]|[(_ & X & _)|[X _]]]; try congruence. }
        split; [exact F2|]. split; [exact K1|]. split.
        { eapply (PH_TS g OK); eauto.
          - apply BLK. right. discriminate.
          - apply OO. fold i. rewrite PT. discriminate.
          - fold i. intros p Hp. destruct (ptr_eqb_spec p (P1 e)) as [->|]; [auto|]. rewrite OO by auto. auto. }
        split; [exact (ph_cs _ _ _ _ _ _ _ _ _ _ _ _ P)|]. split; [exact PB1|]. split; [exact OO|]. split; [exact N1|].
        split; [intros _; rewrite (KS_com g OK _ _ _ _ _ _ _ _ _ _ _ _ KSx K1); exact N2|]. split; [discriminate|].
        unfold FreeBlockCount. rewrite (k_res K), (k_res (proj1 K1)), MF.
        assert (bcost s c BD_DINDIR <= 1).
        { unfold bcost, dcost, icost, tcost. rewrite A3, A4, Hde, Hie. unfold need. destruct ((c_db c =? 0) || com s (c_db c)); lia. }
        destruct R0; [lia|]. destruct (N.leb_spec (RESV g) (m_free (s_w s1) + bcost s c BD_DINDIR)), (N.leb_spec (RESV g) (m_free (s_w s1))); lia.
    - right. exists pm, s, c. split; [reflexivity|]. split; [exact KSx|]. split; [apply (TS_refl g OK); tauto|]. split; [exact S|].
      split; [exact HPB|]. split; [auto|]. split; [exact NZ|]. split; [discriminate|]. split; [auto|lia]. }
  assert (LP1 : FBp pm i l -> lfirst g (P1 e) < l).
  { intros HH. apply FBE in HH. cbn [lfirst].
    destruct HH as [(d' & X & _)|(x & X & _)]; [|lia]. assert (1 * PE g <= de * PE g) by (apply N.mul_le_mono_r; lia). lia. }
  destruct BR as [(-> & (F1 & CT) & F2)|(pm1 & s1 & c1 & R1 & K1 & T1 & S1 & PB1 & OO & N1 & CF1 & PE1 & FBC)].
  { left. split; [now apply EFB|]. split; [exact F1|]. exists pm, s, c. split.
    - rewrite RUN. unfold bind at 1. now rewrite F2.
    - split; [exact KSx|]. split; [apply (TS_refl g OK); tauto|]. split; [apply (CS_CW g OK) in S; apply S|].
      split; [auto|]. split; [exact Hl|]. exists (P1 e). split; [left; split; [congruence|auto]|]. split; [apply LP1; now apply EFB|exact CT]. }
  assert (EI : c_ino c1 = i) by apply T1.
  assert (NZB : nzb pm1 i (P2 e de) ie <-> nzb pm i (P2 e de) ie).
  { unfold nzb. split; intros (k & X1 & X2); exists k; split; auto; [rewrite <- OO|rewrite OO]; auto; discriminate. }
  assert (E1 : c_l c1 = l) by apply S1.
  destruct (dloop_spec g OK C0 D0 R0 e fb Hh HIE (N.to_nat (n - de)) de ie pm1 Dnone s1 c1 l) as
    [(F1 & cx & SMx & Sx & PBx & FCx & Rx)|(pm2 & D2 & s2 & c2 & R2 & K2 & T2 & ZL2 & G1 & G2 & G3 & G4)]; auto.
  { rewrite N2Nat.id. lia. }
  { intros _. split; auto. rewrite LEN. apply NB1. }
  { apply (CZ_ZL g OK pm1 c1 l e); [apply (CS_CZ g OK); auto|reflexivity|congruence]. }
  { now rewrite EI. }
  { intros F. split; [intros p []|]. rewrite EI. split; auto. assert (X : c_dirty c1 = c_dirty c) by apply T1. rewrite X. apply HDT. now apply EFB. }
  { intros _ p []. }
  { rewrite EI, NZB. intros X. apply EFB, FBE. auto. }
  { left. rewrite EI, NZB in F1. assert (FBT : FBp pm i l) by (apply FBE; auto). split; [exact FBT|]. split.
    - assert (bcost s1 cx BD_INDIR <= 2).
      { unfold bcost, dcost, icost, tcost, need. destruct (c_de cx), (c_ie cx), ((c_db cx =? 0) || com s1 (c_db cx)), ((c_ib cx =? 0) || com s1 (c_ib cx)); lia. }
      assert (MAXCOST g = 3). { unfold MAXCOST, DINDIR_POINTERS. destruct (N.ltb_spec 0 (IE g - NDIR g - NIND g)); lia. }
      lia.
    - exists pm1, s1, cx. split.
      + rewrite RUN. rewrite (bind_ok _ _ _ _ _ R1). unfold bind at 1, getc at 1. cbn [snd]. rewrite E1, OFFE. fold n.
        unfold bind at 1. now rewrite Rx.
      + split; [eapply (KS_csame g OK); eauto|]. split; [eapply (TS_csame' g OK); eauto|]. split; [pose proof (CS_CW g OK _ _ _ Sx) as X; apply X|].
        apply EFB in FBT. pose proof (fun b => KS_com g OK _ _ _ _ _ _ _ _ _ _ _ b KSx K1) as CMS. split.
        * intros j p H1 H2. rewrite CMS. destruct (ptr_eqb_spec p (P1 e)) as [->|Hp].
          -- destruct (N.eq_dec j i) as [->|Hj]; [rewrite <- CMS; auto|]. destruct T1 as (_ & _ & T1). rewrite (tr_pm _ _ _ _ _ _ _ T1) by auto. auto.
          -- rewrite OO by auto. auto.
        * split; [exact Hl|]. exists (P2 e de). split; [right; split; [congruence|auto]|]. split; [destruct F1 as (x & X & _); rewrite LF2; lia|].
          assert (EIx : c_ino cx = i) by (rewrite (ino_same g OK _ _ SMx); exact EI).
          pose proof (s_at _ _ _ _ Sx) as (_ & _ & A3x & A4x). rewrite (s_l _ _ _ _ Sx) in A3x, A4x. rewrite Hde in A3x. rewrite Hie in A4x.
          assert (NZ2 : pm i (P2 e de) <> 0). { intros Z. destruct F1 as (x & X1 & X2). apply X2. apply (r_zero (k_rep K)); auto; [cbn; lia|lia]. }
          apply need_com; auto. revert FCx. unfold bcost, dcost, icost, tcost. rewrite A3x, A4x.
          rewrite (s_db _ _ _ _ Sx), (s_ib _ _ _ _ Sx), EIx, PI, PD by congruence. rewrite (OO i (P2 e de)) by discriminate.
          unfold need at 1. destruct (N.eqb_spec (pm1 i (P1 e)) 0); [contradiction|]. rewrite (CF1 FBT). cbn [orb]. unfold need. rewrite CMS. lia. }
  right. rewrite EI, LEN in *.
  assert (T2' : TS (fun m => l <= m < efirst g e + PE g * PE g) pm s c pm2 s2 c2).
  { eapply (TS_trans g OK); [exact T1|exact T2|]. intros m Hm. cbv beta. specialize (WID m Hm). tauto. }
  assert (E2 : c_ino c2 = i) by apply T2'.
  assert (NODES : forall q, 0 < phgt g q -> (q = P1 e \/ exists d, q = P2 e d) -> pm2 i q <> 0 -> (q = P1 e -> fb = true) -> lfirst g q < l).
  { intros q Hq Hc NZ2 HH. destruct Hc as [->|(d & ->)].
    - specialize (HH eq_refl). apply EFB, FBE in HH. cbn [lfirst].
      destruct HH as [(d' & X & _)|(x & X & _)]; [|lia]. assert (1 * PE g <= de * PE g) by (apply N.mul_le_mono_r; lia). lia.
    - destruct (Core_blk OK (proj1 K2) (i := i) (p := P2 e d)) as (_ & _ & (_ & _ & Vd) & _); [exact NZ2|].
      rewrite LF2. destruct (N.lt_ge_cases d de) as [L1|L1].
      + assert ((d + 1) * PE g <= de * PE g) by (apply N.mul_le_mono_r; lia). lia.
      + destruct (N.lt_ge_cases d n) as [L2|L2].
        * destruct (G3 d) as (-> & x & X & _); auto; [rewrite N2Nat.id; lia|]. lia.
        * exfalso. apply NZ2. rewrite <- E2. eapply BEY; eauto. }
  assert (OTH : forall j q, 0 < phgt g q -> q <> P1 e -> (forall d, q <> P2 e d) -> pm2 j q = pm j q).
  { intros j q Hq X1 X2. rewrite G4; auto. }
  assert (PRE : TruncDindir g (s, c) = ((if fb then ret tt else modc PutDindir ;;; lift (RedImapBlockSet g (c_db c2) false)) ;;; ret (negb fb)) (s2, c2)).
  { rewrite RUN. rewrite (bind_ok _ _ _ _ _ R1). unfold bind at 1, getc at 1. cbn [snd]. rewrite E1, OFFE. fold n.
    unfold bind at 1. rewrite R2. cbv beta iota. unfold bind at 1, getc at 1. cbn [snd]. reflexivity. }
  destruct ZL2 as (W2 & PB2 & I2 & Ee2 & De2 & Db2). rewrite E2 in Db2.
  destruct fb.
  - destruct (G1 eq_refl) as (X1 & X2 & X3). exists false, pm2, D2, s2, c2. split; [rewrite PRE; reflexivity|].
    split; [exact K2|]. split; [exact T2'|]. split; [exact PB2|]. split; [exact W2|]. split; [exact Ee2|]. split; [discriminate|]. split; [auto|].
    split; [intros q Hq Hc NZ2; apply NODES; auto|exact OTH].
  - destruct (G2 eq_refl) as (X1 & X2 & X3). rewrite (PE1 eq_refl) in *.
    assert (NFB : ~ FBp pm i l) by (intros X; apply EFB in X; discriminate).
    assert (CH : forall d, d < PE g -> pm2 i (P2 e d) = 0).
    { intros d Hd'. destruct (N.lt_ge_cases d de) as [L1|L1].
      - rewrite G4.
        + destruct (N.eq_dec (pm i (P2 e d)) 0) as [|X]; auto. destruct NFB. apply FBE. left. eauto.
        + cbn. lia.
        + discriminate.
        + intros k' Hk' X. injection X as ->. lia.
      - destruct (N.lt_ge_cases d n) as [L2|L2].
        + destruct (N.eq_dec (pm2 i (P2 e d)) 0) as [|X]; auto. destruct (G3 d) as (-> & Y); auto; [rewrite N2Nat.id; lia|].
          destruct NFB. apply FBE. auto.
        + rewrite <- E2. eapply BEY; eauto. }
    set (c3 := PutDindir c2).
    assert (SM : csame c2 c3) by (repeat split).
    destruct (free_node g OK C0 D0 R0 pm2 D2 (fun p => p = P1 e) s2 c3 (P1 e)) as (s3 & R3 & K3 & T3).
    { eapply (KS_csame g OK); eauto. }
    { cbn. rewrite E2. congruence. }
    { cbn. lia. }
    { cbn. rewrite E2. exact CH. }
    { reflexivity. }
    { intros p Hp. right. destruct (X2 p Hp) as (k' & _ & ->). exists k'. reflexivity. }
    change (c_ino c3) with (c_ino c2) in *. rewrite E2 in *.
    exists true, (pupd pm2 i (P1 e) 0), (fun p => p = P1 e), s3, c3. split.
    { rewrite PRE. unfold bind at 1. unfold bind at 1, modc at 1. cbn [fst snd]. fold c3. unfold lift. cbn [fst snd]. rewrite Db2, R3. reflexivity. }
    split; [exact K3|]. split.
    { eapply (TS_trans g OK); [eapply (TS_csame' g OK); [exact SM|exact T2']|exact T3|]. intros m Hm. cbv beta. tauto. }
    split; [exact PB2|]. split.
    { assert (P3' : c_pi c2 = false) by (apply X3; lia). pose proof W2 as [U1 U2 U3 U4]. constructor; auto.
      - discriminate.
      - change (c_pi c3) with (c_pi c2). congruence.
      - change (c_pb c3) with (c_pb c2). congruence. }
    split; [exact Ee2|]. split; [intros _; split; [apply pupd_same|auto]|]. split; [discriminate|]. split.
    { intros q Hq Hc NZ2. destruct (ptr_eqb_spec q (P1 e)) as [->|Hne]; [rewrite pupd_same in NZ2; congruence|].
      rewrite pupd_ptr in NZ2 by auto. apply NODES; auto; intros; congruence. }
    intros j q Hq Y1 Y2. rewrite pupd_ptr by auto. auto.
Qed.
End Trunc.
