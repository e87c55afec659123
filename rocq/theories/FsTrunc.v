(** Truncating file data. *)
From Verif Require Import Base Count FsState FsImap FsInode FsData FsTree FsImapProof FsWp FsInv FsStep FsSeek FsBranch FsRead FsWrite FsWrite2.
Ltac Zify.zify_post_hook ::= idtac.

Section Trunc.
Variable g : cfg.
Hypothesis OK : cfg_ok g.
Set Default Proof Using "OK".

(** Effect on the pointer map and contents of discarding the blocks in P of inode i. *)
Record TR (i : N) (P : N -> Prop) (pm : pmap) (s : st) (pm' : pmap) (s' : st) : Prop := {
  tr_pm : forall j q, j <> i -> pm' j q = pm j q;
  tr_zero : forall m, m < INODE_DATA_BLOCKS g -> P m -> pm' i (pT g m) = 0;
  tr_keep : forall m, m < INODE_DATA_BLOCKS g -> ~ P m -> pm' i (pT g m) = pm i (pT g m);
  tr_z : forall m, m < INODE_DATA_BLOCKS g -> pm i (pT g m) = 0 -> pm' i (pT g m) = 0;
  tr_blk : forall j m x, m < INODE_DATA_BLOCKS g -> (j <> i \/ ~ P m) -> blkc g pm' s' j m x = blkc g pm s j m x;
  tr_node : forall p, 0 < phgt g p -> pm' i p <> 0 -> pm i p <> 0;
  tr_low : lows g i s s' }.

Lemma TR_refl i (P : N -> Prop) pm s : (forall m, m < INODE_DATA_BLOCKS g -> P m -> pm i (pT g m) = 0) -> TR i P pm s pm s.
Proof. intros H. constructor; auto. apply (lows_refl g OK). Qed.
Lemma TR_trans i (P Q R : N -> Prop) pm s pm1 s1 pm2 s2 :
  TR i P pm s pm1 s1 -> TR i Q pm1 s1 pm2 s2 ->
  (forall m, m < INODE_DATA_BLOCKS g -> R m -> P m \/ Q m) -> (forall m, m < INODE_DATA_BLOCKS g -> P m \/ Q m -> R m) ->
  TR i R pm s pm2 s2.
Proof.
  intros [A1 A2 A3 A4 A5 A6 A7] [B1 B2 B3 B4 B5 B6 B7] H1 H2. constructor.
  - intros. rewrite B1, A1; auto.
  - intros m Hm HR. destruct (H1 m Hm HR); auto.
  - intros m Hm HR. assert (~ P m /\ ~ Q m) as [? ?] by (split; intros X; apply HR; auto). rewrite B3, A3; auto.
  - auto.
  - intros j m x Hm HR. assert (j <> i \/ ~ P m) by (destruct HR as [|HR]; [now left|right; intros X; apply HR, H2; auto]). assert (j <> i \/ ~ Q m) by (destruct HR as [|HR]; [now left|right; intros X; apply HR, H2; auto]).
    rewrite B5, A5; auto.
  - auto.
  - eapply (lows_trans g OK); eauto.
Qed.
Lemma TR_eq i (P Q : N -> Prop) pm s pm' s' : (forall m, m < INODE_DATA_BLOCKS g -> P m <-> Q m) -> TR i P pm s pm' s' -> TR i Q pm s pm' s'.
Proof.
  intros H T. eapply TR_trans with (P := P) (Q := Q) (s1 := s') (pm1 := pm'); eauto.
  - apply TR_refl. intros m Hm HQ. apply T; auto. now apply H.
  - intros m Hm [HP|]; auto. now apply H.
Qed.

Lemma cset_i_id c : cset_i (c_i c) c = c. Proof. now destruct c. Qed.
Lemma cset_i_cid c io : cid c (cset_i io c). Proof. repeat split. Qed.

(** slots of an indirect node *)
Lemma slot_child q k : vptr g q -> phgt g q = 1 -> k < PE g -> child q k = pT g (lfirst g q + k).
Proof.
  intros V H Hk. rewrite <- (data_slot g OK (child q k)).
  - rewrite (lfirst_child g) by (auto; lia). rewrite H. change (hspan g (1 - 1)) with 1. now rewrite N.mul_1_r.
  - apply child_vptr; auto. lia.
  - rewrite child_phgt; auto; lia.
Qed.
Lemma any_nz_spec f n : any_nz f n = true <-> exists k, k < N.of_nat n /\ f k <> 0.
Proof.
  induction n; cbn [any_nz].
  - split; [discriminate|]. intros (k & Hk & _). lia.
  - rewrite orb_true_iff, IHn, negb_true_iff. split.
    + intros [(k & Hk & F)|F]; [exists k; split; auto; lia|]. exists (N.of_nat n). split; [lia|]. now apply N.eqb_neq.
    + intros (k & Hk & F). destruct (N.eq_dec k (N.of_nat n)) as [->|].
      * right. now apply N.eqb_neq.
      * left. exists k. split; auto. lia.
Qed.
Lemma any_nz_false f n : any_nz f n = false -> forall k, k < N.of_nat n -> f k = 0.
Proof.
  intros H k Hk. destruct (N.eq_dec (f k) 0); auto. assert (any_nz f n = true) by (apply any_nz_spec; eauto). congruence.
Qed.
Lemma any_nz_ext f f' n : (forall k, k < N.of_nat n -> f k = f' k) -> any_nz f n = any_nz f' n.
Proof. induction n; intros H; cbn [any_nz]; auto. rewrite IHn, H; auto; intros; try apply H; lia. Qed.

Variable C0 : mroot.
Variable D0 : N -> blk.
Variable R0 : bool.
Notation Core := (Core g C0 D0 R0).
Notation LM := (INODE_SIZE_MAX g).

Definition KS (pm : pmap) (D : ptr -> Prop) (s : st) (c : cin) : Prop :=
  Core (c_ino c) (c_i c) LM pm D s /\ CM g s c /\ i_blocks (c_i c) = nblk g pm (c_ino c).
Definition TS (P : N -> Prop) (pm : pmap) (s : st) (c : cin) (pm' : pmap) (s' : st) (c' : cin) : Prop :=
  cid c c' /\ meta_same (c_i c) (c_i c') /\ TR (c_ino c) P pm s pm' s'.

Lemma KS_com pm D s c pm' D' s' c' b : KS pm D s c -> KS pm' D' s' c' -> com s' b = com s b.
Proof. intros (K & _) (K' & _). eapply (com_same g OK); eauto. Qed.
Lemma KS_D pm (D D' : ptr -> Prop) s c : (forall p, D p -> D' p) -> KS pm D s c -> KS pm D' s c.
Proof. intros H (K & M & B). split; [|split]; auto. eapply (Core_D OK); eauto. Qed.
Lemma KS_csame pm D s c c' : csame c c' -> KS pm D s c -> KS pm D s c'.
Proof.
  intros SM (K & M & B). pose proof SM as (E1 & E2 & E3 & E4 & E5 & E6 & E7). unfold KS. rewrite E1, E4.
  split; [|split]; auto. eapply (csame_CM g OK); eauto.
Qed.
Lemma KS_lim pm D s c p : KS pm D s c -> pm (c_ino c) p <> 0 -> lfirst g p < INODE_DATA_BLOCKS g.
Proof.
  intros (K & _) Hp. pose proof (f_lim (k_lim0 K) _ Hp) as X. unfold INODE_SIZE_MAX in X. pose proof (BSp g OK).
  rewrite (N.mul_comm (BS g)) in X. now apply N.mul_lt_mono_pos_r in X.
Qed.
Lemma TS_refl (P : N -> Prop) pm s c : (forall m, m < INODE_DATA_BLOCKS g -> P m -> pm (c_ino c) (pT g m) = 0) -> TS P pm s c pm s c.
Proof. intros H. split; [apply (cid_refl g OK)|split; [apply (meta_refl g OK)|now apply TR_refl]]. Qed.
Lemma TS_trans (P Q R : N -> Prop) pm s c pm1 s1 c1 pm2 s2 c2 :
  TS P pm s c pm1 s1 c1 -> TS Q pm1 s1 c1 pm2 s2 c2 ->
  (forall m, m < INODE_DATA_BLOCKS g -> R m <-> P m \/ Q m) -> TS R pm s c pm2 s2 c2.
Proof.
  intros (A1 & A2 & A3) (B1 & B2 & B3) H. pose proof (proj1 A1) as E. rewrite E in B3.
  split; [eapply (cid_trans g OK); eauto|split; [eapply (meta_trans g OK); eauto|]].
  eapply TR_trans; eauto; intros m Hm; apply H; auto.
Qed.
Lemma TS_csame P pm s c c1 pm' s' c' : csame c c1 -> TS P pm s c1 pm' s' c' -> TS P pm s c pm' s' c'.
Proof.
  intros SM (A1 & A2 & A3). destruct (csame_cid g OK _ _ SM) as [C1 C2]. rewrite C2 in A2.
  split; [eapply (cid_trans g OK); eauto|split; auto]. now rewrite (proj1 C1) in A3.
Qed.
Lemma TS_csame' P pm s c pm' s' c' c1 : csame c' c1 -> TS P pm s c pm' s' c' -> TS P pm s c pm' s' c1.
Proof.
  intros SM (A1 & A2 & A3). destruct (csame_cid g OK _ _ SM) as [C1 C2].
  split; [eapply (cid_trans g OK); eauto|split; auto]. now rewrite C2.
Qed.

Lemma TDB_zero s c D pm clear prop : KS pm D s c -> TruncDataBlock g 0 clear prop (s, c) = (Ok tt, (s, c)).
Proof. intros (K & M & B). unfold TruncDataBlock, bind, getc. cbn [snd]. now rewrite (CM_mounted g OK _ _ M). Qed.

Lemma TDB_nz pm D s c m clear prop : KS pm D s c -> m < INODE_DATA_BLOCKS g -> pm (c_ino c) (pT g m) <> 0 ->
  exists s' io', TruncDataBlock g (pm (c_ino c) (pT g m)) clear prop (s, c) = (if prop then clear else ret tt) (s', cset_i io' c) /\
    i_ent io' = i_ent (c_i c) /\
    KS (pupd pm (c_ino c) (pT g m) 0) (Dadd D (pT g m)) s' (cset_i io' c) /\
    TS (fun x => x = m) pm s c (pupd pm (c_ino c) (pT g m) 0) s' (cset_i io' c).
Proof.
  intros (K & M & HB) Hm Hp. set (i := c_ino c) in *. set (p := pT g m) in *.
  pose proof (pT_phgt g OK m Hm) as Ph. fold p in Ph.
  destruct (Core_blk OK K Hp) as (RP & CP & _).
  destruct (free_spec g OK C0 D0 R0 i (c_i c) LM pm D (Dadd D p) s p) as (s1 & R1 & K1 & Dk1 & Cu1 & Ec1 & _ & _); auto; try lia.
  { now right. }
  { intros q Hq. left. now left. }
  assert (M1 : CM g s1 c).
  { pose proof (CM_blk g OK _ _ M). eapply (CM_dk g OK); eauto.
    - now apply Cu1.
    - unfold com. now rewrite Ec1.
    - apply Dk1. lia. }
  pose proof (nblk_data g OK pm i m 0 Hm) as NB. fold p in NB.
  destruct (N.eqb_spec (pm i p) 0) as [|_]; [congruence|]. change (0 =? 0) with true in NB. cbn iota in NB.
  set (io' := iset_blocks (i_blocks (c_i c) - 1) (c_i c)).
  exists (iset_st s1 c io'), io'. split; [|split; [|split]].
  - unfold TruncDataBlock. unfold bind at 1, getc at 1. cbn [snd]. rewrite (CM_mounted g OK _ _ M). cbn [negb].
    destruct (N.eqb_spec (pm i p) 0) as [|_]; [congruence|]. unfold bind at 1, lift at 1. cbn [fst snd]. rewrite R1.
    unfold bind at 1, getc at 1. cbn [snd]. destruct (N.eqb_spec (i_blocks (c_i c)) 0) as [Z|_].
    { rewrite HB in Z. fold i in Z. pose proof (nblk_pos g OK pm i m Hm Hp). lia. }
    unfold bind at 1. rewrite (iset_run g OK). reflexivity.
  - reflexivity.
  - split; [|split].
    + cbn [c_ino c_i cset_i]. eapply (iset_Core g OK) with (D := Dadd D p); [exact M1|exact K1| | |].
      * intros e He Hnd. change (i_ent io' e) with (i_ent (c_i c) e). eapply ino_sync; [apply (k_rep K1)|auto|auto].
      * intros q Hq. left. exact Hq.
      * destruct (k_lim0 K1) as [B1 B2 B3]. constructor; auto.
    + now apply (iset_CM g OK).
    + cbn. rewrite HB. fold i. lia.
  - split; [apply cset_i_cid|]. split; [repeat split|]. fold i.
    assert (DK : forall b, FA g <= b -> b <> pm i p -> dk (iset_st s1 c io') b = dk s b).
    { intros b Hb Hn. rewrite (iset_dk g OK); auto. pose proof (CM_blk g OK _ _ M). lia. }
    constructor.
    + intros j q Hj. now apply pupd_ino.
    + intros x Hx ->. apply pupd_same.
    + intros x Hx Hn. apply pupd_ptr. intros E. apply (pT_inj g OK) in E; auto.
    + intros x Hx Hz. destruct (N.eq_dec x m) as [->|Hn]; [apply pupd_same|]. rewrite pupd_ptr; auto. intros E. apply (pT_inj g OK) in E; auto.
    + intros j x y Hx Hn. unfold blkc. rewrite pupd_other.
      * destruct (N.eqb_spec (pm j (pT g x)) 0) as [|Hz]; auto. destruct (Core_blk OK K Hz) as (RX & _). rewrite DK; auto; [lia|].
        intros E. destruct (Core_inj OK K Hz E) as [-> E2]. apply (pT_inj g OK) in E2; auto. destruct Hn; auto.
      * destruct Hn as [|Hn]; auto. right. intros E. apply (pT_inj g OK) in E; auto.
    + intros q Hq. destruct (ptr_eqb_spec q p) as [->|]; [lia|]. now rewrite pupd_ptr.
    + intros b Hb. rewrite (iset_cur g OK). split; [now apply Cu1|].
      destruct (N.eq_dec b (c_blk c)) as [->|Hn]; [left; apply M|right]. rewrite (iset_dk g OK); auto. apply Dk1. lia.
Qed.

(** * Loop over the entries of an indirect node *)
Definition tbody (ib : N) (fb : bool) (k : N) : MC unit :=
  e <- lift (get_indir ib) ;; TruncDataBlock g (e k) (lift (node_set ib k 0)) fb.

Lemma KS_ext pm pm' D s c : (forall j q, pm' j q = pm j q) -> KS pm D s c -> KS pm' D s c.
Proof.
  intros H (K & M & B). split; [|split]; auto.
  - eapply (Core_ext g OK); eauto.
  - rewrite B. apply count_ext. intros. now rewrite H.
Qed.

Lemma tbody_spec q fb k pm D s c :
  KS pm D s c -> vptr g q -> phgt g q = 1 -> pm (c_ino c) q <> 0 -> (fb = true -> com s (pm (c_ino c) q) = false) ->
  k < PE g -> lfirst g q + k < INODE_DATA_BLOCKS g -> ~ D (child q k) ->
  exists pm' D' s' io', tbody (pm (c_ino c) q) fb k (s, c) = (Ok tt, (s', cset_i io' c)) /\
    KS pm' D' s' (cset_i io' c) /\ TS (fun x => x = lfirst g q + k) pm s c pm' s' (cset_i io' c) /\
    (forall j p, 0 < phgt g p -> pm' j p = pm j p) /\
    (forall p, D' p -> D p \/ fb = false /\ p = child q k).
Proof.
  intros KSx V Hh Hq Hc Hk Hl HD. pose proof KSx as (K & M & HB). set (i := c_ino c) in *.
  destruct (indir_sync g s i (c_i c) D pm (k_rep K) q k Hq Hh Hk HD) as (e & Re & Ee).
  pose proof (slot_child q k V Hh Hk) as Ec. set (m := lfirst g q + k) in *.
  assert (RUN : tbody (pm i q) fb k (s, c) = TruncDataBlock g (pm i (pT g m)) (lift (node_set (pm i q) k 0)) fb (s, c)).
  { unfold tbody. unfold bind at 1, lift at 1. cbn [fst snd]. rewrite Re. cbv beta iota. now rewrite Ee, Ec. }
  destruct (N.eq_dec (pm i (pT g m)) 0) as [Z|Z].
  - exists pm, D, s, (c_i c). rewrite cset_i_id, RUN, Z, (TDB_zero s c D pm _ _ KSx). sp; auto. apply TS_refl. intros x Hx ->. exact Z.
  - destruct (TDB_nz pm D s c m (lift (node_set (pm i q) k 0)) fb KSx Hl Z) as (s1 & io1 & R1 & IE1 & K1 & T1).
    fold i in R1, K1, T1. rewrite RUN, R1. set (pm1 := pupd pm i (pT g m) 0) in *.
    assert (Nq : forall p, 0 < phgt g p -> p <> pT g m).
    { intros p Hp E. rewrite E, (pT_phgt g OK) in Hp; auto. lia. }
    assert (ND : forall j p, 0 < phgt g p -> pm1 j p = pm j p) by (intros; apply pupd_ptr; auto).
    destruct fb.
    + pose proof K1 as (C1 & M1 & B1). cbn [c_ino c_i cset_i] in C1. fold i in C1.
      assert (E1 : pm1 i q = pm i q) by (apply ND; lia).
      destruct (node_set_spec g OK C0 D0 R0 i io1 LM pm1 (Dadd D (pT g m)) s1 q k 0) as (v & R2 & C2); auto; try lia.
      { rewrite E1. rewrite (KS_com _ _ _ _ _ _ _ _ _ KSx K1). auto. }
      { rewrite Ec. unfold pm1. now rewrite pupd_same. }
      rewrite E1 in R2, C2.
      exists pm1, D, (dk_write (pm i q) v s1), io1. split; [|split; [|split; [|split]]]; auto.
      * unfold lift. cbn [fst snd]. now rewrite R2.
      * split; [|split].
        -- eapply (Core_D OK); [|exact C2]. rewrite Ec. intros p [[Hp|Hp] Hn]; auto. congruence.
        -- destruct (Core_blk OK K Hq) as (RQ & _). eapply (CM_dk g OK); eauto. cbn. apply upd_other. pose proof (CM_blk g OK _ _ M1). cbn in *. lia.
        -- exact B1.
      * destruct T1 as (A1 & A2 & A3). split; [exact A1|]. split; [exact A2|]. fold i in A3 |- *.
        eapply TR_trans with (P := fun x => x = m) (Q := fun _ => False); [exact A3| |tauto|tauto].
        destruct (Core_blk OK K Hq) as (RQ & _).
        constructor; auto; try tauto.
        -- intros j x y Hx _. unfold blkc. destruct (N.eqb_spec (pm1 j (pT g x)) 0) as [|Hz]; auto. cbn. rewrite upd_other; auto.
           intros E. rewrite <- E1 in E. destruct (Core_inj OK C1 Hz E) as [_ E2]. apply (Nq q); [lia|]. 
           exfalso. apply (f_equal (phgt g)) in E2. rewrite (pT_phgt g OK) in E2 by auto. lia.
        -- intros b Hb. split; [reflexivity|]. right. cbn. apply upd_other. lia.
    + exists pm1, (Dadd D (pT g m)), s1, io1. split; [reflexivity|]. sp; auto. rewrite Ec. intros p [Hp| ->]; auto.
Qed.

Lemma tloop_spec q fb : forall n k pm D s c,
  KS pm D s c -> vptr g q -> phgt g q = 1 -> pm (c_ino c) q <> 0 -> (fb = true -> com s (pm (c_ino c) q) = false) ->
  k + N.of_nat n <= PE g -> lfirst g q + k + N.of_nat n <= INODE_DATA_BLOCKS g -> (forall k', k <= k' < PE g -> ~ D (child q k')) ->
  exists pm' D' s' io', loop n k (tbody (pm (c_ino c) q) fb) (s, c) = (Ok tt, (s', cset_i io' c)) /\
    KS pm' D' s' (cset_i io' c) /\ TS (fun x => lfirst g q + k <= x < lfirst g q + k + N.of_nat n) pm s c pm' s' (cset_i io' c) /\
    (forall j p, 0 < phgt g p -> pm' j p = pm j p) /\
    (forall p, D' p -> D p \/ fb = false /\ exists k', p = child q k').
Proof.
  induction n; intros k pm D s c KSx V Hh Hq Hc Hk Hl HD; cbn [loop].
  - exists pm, D, s, (c_i c). rewrite cset_i_id. sp; auto. apply TS_refl. intros; lia.
  - destruct (tbody_spec q fb k pm D s c) as (pm1 & D1 & s1 & io1 & R1 & K1 & T1 & N1 & DD1); auto; try lia.
    { apply HD. lia. }
    assert (E1 : pm1 (c_ino c) q = pm (c_ino c) q) by (apply N1; lia).
    destruct (IHn (k + 1) pm1 D1 s1 (cset_i io1 c)) as (pm2 & D2 & s2 & io2 & R2 & K2 & T2 & N2 & DD2); auto; try lia.
    { cbn. congruence. }
    { cbn. intros F. rewrite E1, (KS_com _ _ _ _ _ _ _ _ _ KSx K1). auto. }
    { intros k' Hk' HDx. destruct (DD1 _ HDx) as [X|[_ X]]; [apply (HD k'); auto; lia|]. apply child_inj with (g := g) in X; try lia. }
    exists pm2, D2, s2, io2. cbn [c_ino cset_i] in R2. rewrite E1 in R2.
    split; [unfold bind at 1; rewrite R1; exact R2|]. split; [exact K2|]. split; [|split].
    + eapply TS_trans; [exact T1|exact T2|]. intros m Hm. cbv beta. lia.
    + intros j p Hp. rewrite N2, N1; auto.
    + intros p Hp. destruct (DD2 p Hp) as [X|X]; auto. destruct (DD1 p X) as [|[F ->]]; eauto.
Qed.

(** Freeing an empty node. *)
Lemma free_node pm (D D' : ptr -> Prop) s c q :
  KS pm D s c -> pm (c_ino c) q <> 0 -> 0 < phgt g q -> (forall k, k < PE g -> pm (c_ino c) (child q k) = 0) ->
  D' q -> (forall p, D p -> D' p \/ exists k, p = child q k) ->
  exists s', RedImapBlockSet g (pm (c_ino c) q) false s = (Ok tt, s') /\
    KS (pupd pm (c_ino c) q 0) D' s' c /\ TS (fun _ => False) pm s c (pupd pm (c_ino c) q 0) s' c.
Proof.
  intros (K & M & B) Hq Hh Hz HD' HD. set (i := c_ino c) in *.
  destruct (free_spec g OK C0 D0 R0 i (c_i c) LM pm D D' s q) as (s1 & R1 & K1 & Dk1 & Cu1 & Ec1 & _ & _); auto.
  { intros p Hp. destruct (HD p Hp); auto. }
  destruct (Core_blk OK K Hq) as (RQ & _).
  assert (NT : forall m, m < INODE_DATA_BLOCKS g -> pT g m <> q).
  { intros m Hm E. pose proof (pT_phgt g OK m Hm) as X. rewrite E in X. lia. }
  exists s1. split; [exact R1|]. split.
  - split; [exact K1|]. split.
    + pose proof (CM_blk g OK _ _ M). eapply (CM_dk g OK); eauto.
      * now apply Cu1.
      * unfold com. now rewrite Ec1.
      * apply Dk1. lia.
    + rewrite (nblk_node g OK); auto.
  - split; [apply (cid_refl g OK)|]. split; [apply (meta_refl g OK)|]. fold i. constructor.
    + intros j p Hj. now apply pupd_ino.
    + intros m _ [].
    + intros m Hm _. apply pupd_ptr. auto.
    + intros m Hm Z. rewrite pupd_ptr; auto.
    + intros j m x Hm _. unfold blkc. rewrite pupd_ptr by auto.
      destruct (N.eqb_spec (pm j (pT g m)) 0) as [|Z]; auto. rewrite Dk1; auto.
      intros E. destruct (Core_inj OK K Z E) as [_ E2]. now apply (NT m).
    + intros p _. destruct (ptr_eqb_spec p q) as [->|]; [intros; exact Hq|]. now rewrite pupd_ptr.
    + intros b Hb. split; [now apply Cu1|]. right. apply Dk1. lia.
Qed.

(** * Programs that do not set pbData *)
Definition keepb {A} (m : MC A) : Prop := forall s c, c_pb c = false -> c_pb (snd (snd (m (s, c)))) = false.
Lemma keepb_bind {A B} (m : MC A) (k : A -> MC B) : keepb m -> (forall a, keepb (k a)) -> keepb (bind m k).
Proof.
  intros H1 H2 s c Hc. unfold bind. specialize (H1 s c Hc). destruct (m (s, c)) as [[a|e] [s1 c1]]; cbn in *; auto. now apply H2.
Qed.
Lemma keepb_ret {A} (a : A) : keepb (ret a). Proof. intros s c H; exact H. Qed.
Lemma keepb_fail {A} e : keepb (@fail _ A e). Proof. intros s c H; exact H. Qed.
Lemma keepb_getc : keepb getc. Proof. intros s c H; exact H. Qed.
Lemma keepb_lift {A} (m : M st A) : keepb (lift m).
Proof. intros s c H. unfold lift. cbn. destruct (m s). exact H. Qed.
Lemma keepb_modc f : (forall c, c_pb c = false -> c_pb (f c) = false) -> keepb (modc f).
Proof. intros F s c H. cbn. auto. Qed.
Lemma keepb_iset f : keepb (iset f). Proof. intros s c H. exact H. Qed.
Lemma keepb_ca {A} (m : MC A) : keepb m -> keepb (critical_assert_c m).
Proof. intros H s c Hc. unfold critical_assert_c. specialize (H s c Hc). destruct (m (s, c)) as [[a|e] [s1 c1]]; exact H. Qed.

Lemma keepb_SeekCoord l c : c_pb c = false -> c_pb (SeekCoord g l c) = false.
Proof.
  intros H. unfold SeekCoord. destruct (negb _ || _); auto. destruct (negb (c_l c =? l) || _); auto.
  repeat (match goal with |- context[if ?b then _ else _] => destruct b end); auto.
Qed.
Ltac kb := repeat first
  [ apply keepb_bind; [|intros ?] | apply keepb_ret | apply keepb_fail | apply keepb_getc | apply keepb_lift
  | apply keepb_modc; [solve [intros ? ?; auto using keepb_SeekCoord]] | apply keepb_iset | apply keepb_ca
  | match goal with |- keepb (match ?x with _ => _ end) => destruct x end ].
Lemma keepb_Seek l : keepb (SeekInode g l). Proof. unfold SeekInode. kb. Qed.
Lemma keepb_Branch d f : d <> BD_DATA -> keepb (BranchBlock g d f).
Proof. intros Hd. unfold BranchBlock, BranchBlockCost. kb; congruence. Qed.
End Trunc.
