(** Shrinking a file. *)
From Verif Require Import Base Count FsState FsImap FsInode FsData FsTree FsImapProof FsWp FsInv FsStep FsSeek FsBranch FsRead FsWrite FsWrite2 FsTrunc FsTrunc2 FsTrunc3.
Ltac Zify.zify_post_hook ::= idtac.

Section Trunc.
Variable g : cfg.
Hypothesis OK : cfg_ok g.
Set Default Proof Using "OK".
Notation IDB := (INODE_DATA_BLOCKS g).

(** * Ranges of the inode entries *)
Lemma hspan0 : hspan g 0 = 1. Proof using. reflexivity. Qed.
Lemma hspan1 : hspan g 1 = PE g. Proof using. reflexivity. Qed.
Lemma hspan2 : hspan g 2 = PE g * PE g. Proof using. reflexivity. Qed.
Lemma efirst_step e e' : e < e' -> efirst g e + hspan g (hgt g e) <= efirst g e'.
Proof.
  intros H. pose proof (ok_PE g OK) as HP.
  assert (Q : PE g <= PE g * PE g) by nia.
  destruct (hcases g e) as [H1 H2 ->|H1 H2 ->|H1 H2 ->], (hcases g e') as [H3 H4 ->|H3 H4 ->|H3 H4 ->]; rewrite H2, ?hspan0, ?hspan1, ?hspan2; try lia.
  - assert (X : e - NDIR g + 1 <= e' - NDIR g) by lia. apply (N.mul_le_mono_r _ _ (PE g)) in X. rewrite N.mul_add_distr_r in X.
    revert X. generalize ((e - NDIR g) * PE g) ((e' - NDIR g) * PE g). intros; lia.
  - assert (X : e - NDIR g + 1 <= NIND g) by lia. apply (N.mul_le_mono_r _ _ (PE g)) in X. rewrite N.mul_add_distr_r in X.
    revert X. generalize ((e - NDIR g) * PE g) (NIND g * PE g) ((e' - NDIR g - NIND g) * (PE g * PE g)). intros; lia.
  - assert (X : e - NDIR g - NIND g + 1 <= e' - NDIR g - NIND g) by lia. apply (N.mul_le_mono_r _ _ (PE g * PE g)) in X.
    rewrite N.mul_add_distr_r in X. revert X.
    generalize ((e - NDIR g - NIND g) * (PE g * PE g)) ((e' - NDIR g - NIND g) * (PE g * PE g)) (PE g * PE g) (NIND g * PE g). intros; lia.
Qed.
Lemma entry_rng l : l < IDB -> efirst g (co_e g l) <= l < efirst g (co_e g l) + hspan g (hgt g (co_e g l)).
Proof.
  intros Hl. pose proof (ok_PE g OK) as HP.
  destruct (co_cases g OK l Hl) as [? ? ? ? H E ?|k ? ? ? H ? ? E ? ? ?|d k ? ? ? ? H ? ? E ? ? ?]; rewrite H; rewrite ?hspan0, ?hspan1, ?hspan2.
  - lia.
  - lia.
  - assert (X : d * PE g + k < PE g * PE g) by nia. clear - E X. revert E X. generalize (efirst g (co_e g l)) (d * PE g) (PE g * PE g). intros; lia.
Qed.
Definition pent (p : ptr) : N := match p with P1 e => e | P2 e _ => e | P3 e _ _ => e end.
Lemma lfirst_rng p : vptr g p -> efirst g (pent p) <= lfirst g p < efirst g (pent p) + hspan g (hgt g (pent p)).
Proof.
  intros V. pose proof (ok_PE g OK) as HP. assert (HQ : 0 < PE g * PE g) by nia.
  assert (hs : forall h, 0 < hspan g h) by (intros h; unfold hspan; destruct (h =? 0), (h =? 1); lia).
  destruct p as [e|e k|e d k]; cbn [pent lfirst vptr] in *.
  - specialize (hs (hgt g e)). lia.
  - destruct V as (V1 & V2 & V3). pose proof (hgt_le g e). destruct (N.eqb_spec (hgt g e) 2) as [->|].
    + rewrite ?hspan1, ?hspan2. assert (k * PE g + PE g <= PE g * PE g) by nia.
      revert H0. generalize (k * PE g) (PE g * PE g). intros; lia.
    + assert (E : hgt g e = 1) by lia. rewrite E. rewrite ?hspan1, ?hspan2. lia.
  - destruct V as (V1 & V2 & V3 & V4). rewrite V2. rewrite ?hspan1, ?hspan2.
    assert (d * PE g + k < PE g * PE g) by nia. revert H. generalize (d * PE g) (PE g * PE g). intros; lia.
Qed.
(** the entry that starts at a block *)
Lemma entry_start e : e < IE g -> efirst g e < IDB -> co_e g (efirst g e) = e.
Proof.
  intros He Hl. pose proof (ok_PE g OK) as HP.
  assert (E : exists p, vptr g p /\ phgt g p = 0 /\ pent p = e /\ lfirst g p = efirst g e).
  { destruct (hcases g e) as [H1 H2 ?|H1 H2 ?|H1 H2 ?].
    - exists (P1 e). cbn. auto.
    - exists (P2 e 0). cbn. rewrite H2. repeat split; auto; lia.
    - exists (P3 e 0 0). cbn. repeat split; auto; lia. }
  destruct E as (p & V & Ph & Ee & Ef). pose proof (data_slot g OK p V Ph) as DS. rewrite Ef in DS.
  unfold pT, pI in DS. rewrite <- Ee at 2. rewrite <- DS. destruct (co_ie g (efirst g e)), (co_de g (efirst g e)); reflexivity.
Qed.

Lemma CZ_CW0 pm c l : CZ g pm c l -> CW0 g pm c.
Proof.
  intros Z. constructor.
  - intros _. apply Z.
  - intros H. destruct (z_pd _ _ _ _ Z H). rewrite (z_l _ _ _ _ Z). split; [apply Z|]. split; [auto|]. split; auto. now apply Z.
  - intros H. destruct (z_pi _ _ _ _ Z H) as (? & ? & ?). rewrite (z_l _ _ _ _ Z). split; [apply Z|]. auto.
  - intros H. rewrite (z_pb _ _ _ _ Z) in H. discriminate.
Qed.

Lemma CW0_ci pm c io : CW0 g pm c -> CW0 g pm (cset_i io c).
Proof. intros [W1 W2 W3 W4]. constructor; assumption. Qed.
Lemma SeekPre_ci pm c io m : SeekPre g pm c m -> SeekPre g pm (cset_i io c) m.
Proof. intros [W E]. split; [now apply CW0_ci|exact E]. Qed.

Variable C0 : mroot.
Variable D0 : N -> blk.
Variable R0 : bool.
Notation Core := (Core g C0 D0 R0).
Notation KS := (KS g C0 D0 R0).
Notation TS := (TS g).
Notation LM := (INODE_SIZE_MAX g).

(** State between the steps of shrinking: the next block to look at is [next]. *)
Definition QS (pm : pmap) (s : st) (c : cin) (next : N) : Prop :=
  KS pm Dnone s c /\ c_pb c = false /\ CW0 g pm c /\ (forall m, next <= m -> m < IDB -> SeekPre g pm c m).
(** Blocks and nodes from [l] to [next] are gone. *)
Definition GS (l next : N) (pm : pmap) (s : st) (c : cin) (pm' : pmap) (s' : st) (c' : cin) : Prop :=
  TS (fun m => l <= m < next) pm s c pm' s' c' /\
  (forall q, 0 < phgt g q -> pm' (c_ino c) q <> 0 -> lfirst g q < l \/ next <= lfirst g q).

Lemma GS_refl l pm s c : GS l l pm s c pm s c.
Proof using OK. clear C0 D0 R0. split; [apply (TS_refl g OK); intros; lia|]. intros. destruct (N.lt_ge_cases (lfirst g q) l); auto. Qed.
Lemma GS_trans l m n pm s c pm1 s1 c1 pm2 s2 c2 : l <= m -> m <= n ->
  GS l m pm s c pm1 s1 c1 -> GS m n pm1 s1 c1 pm2 s2 c2 -> GS l n pm s c pm2 s2 c2.
Proof using OK.
  clear C0 D0 R0. intros H1 H2 (A1 & A2) (B1 & B2). split.
  - eapply (TS_trans g OK); eauto. intros x Hx. cbv beta. lia.
  - intros q Hq NZ. assert (E : c_ino c1 = c_ino c) by apply A1. rewrite E in B2.
    destruct (B2 q Hq NZ) as [X|X]; [|auto].
    assert (NZ1 : pm1 (c_ino c) q <> 0). { rewrite <- E in *. destruct B1 as (_ & _ & T). eapply (tr_node _ _ _ _ _ _ _ T); eauto. }
    destruct (A2 q Hq NZ1); [auto|lia].
Qed.

(** * Direct blocks *)
Lemma direct_body pm s c k : QS pm s c k -> k < NDIR g ->
  exists pm' s' io', (c0 <- getc ;; TruncDataBlock g (i_ent (c_i c0) k) (iset (iset_ent k 0)) true) (s, c) = (Ok tt, (s', cset_i io' c)) /\
    QS pm' s' (cset_i io' c) (k + 1) /\ GS k (k + 1) pm s c pm' s' (cset_i io' c).
Proof.
  intros (KSx & PB & W & SP) Hk. pose proof KSx as (K & M & HB). set (i := c_ino c) in *.
  pose proof (ok_IE g OK). pose proof (data_blocks_dir g).
  assert (HIDB : k < IDB) by lia. assert (HIE : k < IE g) by lia.
  assert (EPT : pT g k = P1 k). { destruct (co_cases g OK k HIDB); auto; lia. }
  assert (EN : i_ent (c_i c) k = pm i (P1 k)). { eapply ino_sync; [exact (k_rep K)|auto|intros []]. }
  assert (NODE : forall q, 0 < phgt g q -> q <> P1 k).
  { intros q Hq ->. cbn in Hq. unfold hgt in Hq. destruct (N.ltb_spec k (NDIR g)); lia. }
  assert (GNODE : forall pm', (forall q, 0 < phgt g q -> pm' i q = pm i q) -> forall q, 0 < phgt g q -> pm' i q <> 0 -> lfirst g q < k \/ k + 1 <= lfirst g q).
  { intros pm' E q Hq NZ. rewrite E in NZ by auto. destruct (Core_blk OK K NZ) as (_ & _ & V & _). pose proof (lfirst_rng q V) as R.
    destruct (N.lt_trichotomy (lfirst g q) k) as [|[X|]]; [auto| |right; lia]. exfalso.
    assert (hgt g (pent q) = 0 -> False). { destruct q; cbn [pent] in *; intros X0; cbn in Hq; lia. }
    destruct (hcases g (pent q)) as [X1 X2 X3|X1 X2 X3|X1 X2 X3]; [tauto| |]; rewrite X3 in R; revert R; [generalize ((pent q - NDIR g) * PE g)|
      generalize ((pent q - NDIR g - NIND g) * (PE g * PE g)) (NIND g * PE g)]; intros; lia. }
  destruct (N.eq_dec (pm i (P1 k)) 0) as [Z|Z].
  - exists pm, s, (c_i c). rewrite (cset_i_id g OK). split.
    { unfold bind at 1, getc at 1. cbn [snd]. rewrite EN, Z. apply (TDB_zero g OK C0 D0 R0 s c Dnone pm); auto. }
    split. { split; [exact KSx|]. split; [exact PB|]. split; [exact W|]. intros m Hm. apply SP. lia. }
    split; [|apply GNODE; auto]. apply (TS_refl g OK). fold i. intros m Hm Hr. replace m with k by lia. now rewrite EPT.
  - destruct (TDB_nz g OK C0 D0 R0 pm Dnone s c k (iset (iset_ent k 0)) true KSx HIDB) as (s1 & io1 & R1 & IE1 & K1 & T1).
    { fold i. now rewrite EPT. }
    fold i in R1, K1, T1. rewrite EPT in *. set (pm1 := pupd pm i (P1 k) 0) in *.
    set (c1 := cset_i io1 c) in *. set (io2 := iset_ent k 0 io1).
    exists pm1, (iset_st s1 c1 io2), io2.
    pose proof K1 as (K1c & M1 & B1).
    assert (N1 : forall j q, q <> P1 k -> pm1 j q = pm j q) by (intros; apply pupd_ptr; auto).
    assert (K2 : KS pm1 Dnone (iset_st s1 c1 io2) (cset_i io2 c)).
    { split; [|split].
      - change (c_i (cset_i io2 c)) with io2. change (c_ino (cset_i io2 c)) with (c_ino c1).
        eapply (iset_Core g OK) with (D := Dadd Dnone (P1 k)); eauto.
        + intros e He _. unfold io2. cbn. unfold upd. destruct (N.eqb_spec e k) as [->|Hne].
          * unfold pm1. cbn. fold i. now rewrite pupd_same.
          * rewrite IE1. change (c_ino c) with i. rewrite N1 by congruence. eapply ino_sync; [exact (k_rep K)|auto|intros []].
        + intros p [[]| ->]. right. eauto.
        + destruct (k_lim0 K1c) as [L1 L2 L3]. constructor; auto.
      - exact (iset_CM g OK s1 c1 io2 M1).
      - exact B1. }
    split.
    { unfold bind at 1, getc at 1. cbn [snd]. rewrite EN, R1. rewrite (iset_run g OK). reflexivity. }
    split.
    { assert (W' : CW0 g pm1 (cset_i io2 c)).
      { destruct W as [W1 W2 W3 W4]. constructor; auto; cbn in *; fold i in W2, W3 |- *.
        - intros X. destruct (W2 X) as (X1 & X2 & X3 & X4). split; [|split; [|split]]; auto. rewrite X4. symmetry. apply N1. apply NODE.
          pose proof (W1 X1) as (A1 & A2 & A3 & A4). cbn in A1. destruct (pD_phgt g OK (c_l c) A1); [congruence|lia].
        - intros X. destruct (W3 X) as (X1 & X2 & X3 & X4). split; [|split; [|split]]; auto. rewrite X4. symmetry. apply N1. apply NODE.
          pose proof (W1 X1) as (A1 & A2 & A3 & A4). cbn in A1. destruct (pI_phgt g OK (c_l c) A1); [congruence|lia].
        - congruence. }
      split; [exact K2|]. split; [exact PB|]. split; [exact W'|].
      intros m Hm1 Hm2. split; [exact W'|]. cbn. intros I E. destruct (SP m ltac:(lia) Hm2) as [_ SPm].
      destruct (SPm I E I) as (Y1 & Y2 & Y3). pose proof (w_at _ _ _ W I) as (A1 & A2 & A3 & A4).
      intros _. cbn. fold i in Y1, Y2, Y3 |- *. split; [|split].
      + intros X. rewrite Y1 by auto. symmetry. apply N1, NODE. destruct (pD_phgt g OK (c_l c) A1); [congruence|lia].
      + intros X X'. rewrite Y2 by auto. symmetry. apply N1, NODE. destruct (pI_phgt g OK (c_l c) A1); [congruence|lia].
      + intros X. rewrite Y3 by auto. symmetry. apply N1.
        assert (XX : c_l c = m) by (apply (co_same_e g OK); auto; congruence). subst m.
        intros Y. pose proof (lfirst_pT g OK (c_l c) A1) as Z1. rewrite Y in Z1. cbn [lfirst] in Z1. rewrite <- EPT in Y.
        apply (pT_inj g OK) in Y; auto. lia. }
    split; [|apply GNODE; intros q Hq; apply N1; auto].
    assert (T2 : TS (fun _ => False) pm1 s1 c1 pm1 (iset_st s1 c1 io2) (cset_i io2 c)).
    { split; [repeat split|]. split; [repeat split|]. cbn. fold i. pose proof (CM_blk g OK _ _ M1) as CB. constructor; auto; try tauto.
      - intros j m x Hm _. unfold blkc. destruct (N.eqb_spec (pm1 j (pT g m)) 0) as [|NZ]; auto. rewrite (iset_dk g OK); auto.
        destruct (Core_blk OK K1c NZ) as (RX & _). lia.
      - intros b Hb. rewrite (iset_cur g OK). split; auto. destruct (N.eq_dec b (c_blk c1)) as [->|]; [left; apply M1|right; apply (iset_dk g OK); auto]. }
    eapply (TS_trans g OK); [exact T1|exact T2|]. intros m Hm. cbv beta. lia.
Qed.

Lemma direct_loop n : forall pm s c k, QS pm s c k -> k + N.of_nat n <= NDIR g ->
  exists pm' s' io', loop n k (fun k => c0 <- getc ;; TruncDataBlock g (i_ent (c_i c0) k) (iset (iset_ent k 0)) true) (s, c) = (Ok tt, (s', cset_i io' c)) /\
    QS pm' s' (cset_i io' c) (k + N.of_nat n) /\ GS k (k + N.of_nat n) pm s c pm' s' (cset_i io' c).
Proof.
  induction n; intros pm s c k Q Hk; cbn [loop].
  - exists pm, s, (c_i c). rewrite (cset_i_id g OK). change (N.of_nat 0) with 0. rewrite N.add_0_r. split; [reflexivity|]. split; [exact Q|apply GS_refl].
  - destruct (direct_body pm s c k Q) as (pm1 & s1 & io1 & R1 & Q1 & G1); [lia|].
    destruct (IHn pm1 s1 (cset_i io1 c) (k + 1) Q1) as (pm2 & s2 & io2 & R2 & Q2 & G2); [lia|].
    replace (k + 1 + N.of_nat n) with (k + N.of_nat (S n)) in * by lia.
    exists pm2, s2, io2. split; [rewrite (bind_ok _ _ _ _ _ R1); exact R2|]. split; [exact Q2|].
    eapply GS_trans; [| |exact G1|exact G2]; lia.
Qed.

(** * Clearing an inode entry *)
Lemma clear_ent pm (D : ptr -> Prop) s c e : KS pm D s c -> e < IE g -> pm (c_ino c) (P1 e) = 0 -> (forall p, D p -> p = P1 e) ->
  let io := iset_ent e 0 (c_i c) in
  KS pm Dnone (iset_st s c io) (cset_i io c) /\ TS (fun _ => False) pm s c pm (iset_st s c io) (cset_i io c).
Proof.
  intros KSx He Z HD io. pose proof KSx as (K & M & B). split.
  - split; [|split].
    + change (c_i (cset_i io c)) with io. change (c_ino (cset_i io c)) with (c_ino c).
      apply (iset_Core g OK C0 D0 R0 s c io LM LM pm D Dnone M K).
      * intros x Hx _. unfold io. cbn. unfold upd. destruct (N.eqb_spec x e) as [->|Hne]; [congruence|].
        eapply ino_sync; [exact (k_rep K)|auto|]. intros X. apply HD in X. congruence.
      * intros p Hp. right. exists e. auto.
      * destruct (k_lim0 K) as [L1 L2 L3]. constructor; auto.
    + exact (iset_CM g OK s c io M).
    + exact B.
  - split; [repeat split|]. split; [repeat split|]. pose proof (CM_blk g OK _ _ M) as CB. constructor; auto; try tauto.
    + intros j m x Hm _. unfold blkc. destruct (N.eqb_spec (pm j (pT g m)) 0) as [|NZ]; auto. rewrite (iset_dk g OK); auto.
      destruct (Core_blk OK K NZ) as (RX & _). lia.
    + intros b Hb. rewrite (iset_cur g OK). split; auto. destruct (N.eq_dec b (c_blk c)) as [->|]; [left; apply M|right; apply (iset_dk g OK); auto].
Qed.

Lemma ent_uniq e p : vptr g p -> efirst g e <= lfirst g p < efirst g e + hspan g (hgt g e) -> pent p = e.
Proof using OK.
  clear C0 D0 R0. intros V R. pose proof (lfirst_rng p V). destruct (N.lt_trichotomy (pent p) e) as [X|[X|X]]; auto;
    pose proof (efirst_step _ _ X); lia.
Qed.
Lemma co_beyond l m : l < IDB -> m < IDB -> efirst g (co_e g l) + hspan g (hgt g (co_e g l)) <= m -> co_e g m <> co_e g l.
Proof using OK. clear C0 D0 R0. intros Hl Hm R E. pose proof (entry_rng m Hm) as X. rewrite E in X. lia. Qed.

(** Result of one step that could not be started for lack of space: nothing was freed. *)
Definition NS (l : N) (pm : pmap) (s : st) (c : cin) (pm' : pmap) (s' : st) (c' : cin) : Prop :=
  KS pm' Dnone s' c' /\ TS (fun _ => False) pm s c pm' s' c' /\ CW g pm' c' /\ FreeBlockCount g s < MAXCOST g /\ FN g pm s (c_ino c) l pm' s'.

Lemma indir_step f pm s c l : QS pm s c l -> NDIR g <= l -> l < NDIR g + INODE_INDIR_BLOCKS g ->
  (l <> efirst g (co_e g l) -> c_dirty c = true) ->
  let n := efirst g (co_e g l) + PE g in
  (l <> efirst g (co_e g l) /\ exists pm' s' c', shrink_indir g (S f) l (s, c) = (Err ENOSPC, (s', c')) /\ NS l pm s c pm' s' c') \/
  exists pm' s' c', shrink_indir g (S f) l (s, c) = shrink_indir g f n (s', c') /\ QS pm' s' c' n /\ GS l n pm s c pm' s' c'.
Proof.
  intros (KSx & PB & W & SP) H1 H2 HD n. pose proof (data_blocks_dir g) as HDB. assert (Hl : l < IDB) by lia.
  pose proof (ok_PE g OK) as HP.
  destruct (co_cases g OK l Hl) as [? ? ? ? ? ? ?|k Hk R HE Hh Ed Ei EL EF PI PT|? ? ? ? ? ? ? ? ? ? ? ? ?]; try lia.
  set (e := co_e g l) in *. set (i := c_ino c) in *. pose proof KSx as (K & M & B).
  pose proof (ok_IE g OK) as HIE'. assert (HIE : e < IE g) by lia.
  destruct (SeekInode_spec g OK C0 D0 R0 s c Dnone pm LM l K M Hl (SP l ltac:(lia) Hl)) as (c1 & R1 & SM & S1); try (intros []).
  fold i in R1.
  assert (PB1 : c_pb c1 = false). { pose proof (keepb_Seek g OK l s c PB) as X. rewrite R1 in X. destruct (pm i (pT g l) =? 0); exact X. }
  assert (K1 : KS pm Dnone s c1) by (eapply (KS_csame g OK); eauto).
  assert (E1 : c_ino c1 = i) by apply SM.
  assert (LF : lfirst g (pI g l) = efirst g e) by (rewrite PI; reflexivity).
  assert (PDE : pD g l = P1 e) by reflexivity.
  assert (RUN : shrink_indir g (S f) l (s, c) =
     (freed <- TruncIndir g ;; c <- getc ;; (if freed : bool then iset (iset_ent (c_e c) 0) else ret tt) ;;;
        shrink_indir g f (l + (PE g - match c_ie c with Some x => x | None => 0 end))) (s, c1)).
  { cbn [shrink_indir]. destruct (N.ltb_spec l (NDIR g + INODE_INDIR_BLOCKS g)); [|lia].
    unfold bind at 1. rewrite (attempt_run _ _ _ _ R1). destruct (pm i (pT g l) =? 0); reflexivity. }
  destruct (TruncIndir_spec g OK C0 D0 R0 pm Dnone s c1 l k K1 S1 PB1 Hl Ei) as
     [(NZ & FC & R2)|(freed & pm2 & D2 & s2 & c2 & R2 & K2 & T2 & Z2 & G1 & G2 & G3 & G4 & G5 & G6)].
  { intros ? ? []. }
  { intros (x & X1 & _). split; [intros p []|]. assert (X : c_dirty c1 = c_dirty c) by apply SM. rewrite X. apply HD. lia. }
  - left. destruct NZ as (x & X1 & X2). split; [lia|]. exists pm, s, c1. split.
    + rewrite RUN. unfold bind at 1. now rewrite R2.
    + split; [exact K1|]. split; [eapply (TS_csame' g OK); [exact SM|apply (TS_refl g OK); tauto]|].
      split; [pose proof (CS_CW g OK _ _ _ S1) as X; apply X|]. split; [pose proof (bcost_max g OK pm s c1 l BD_INDIR S1); lia|].
      split; [auto|]. split; [exact Hl|]. exists (pI g l). split; [right; split; [congruence|auto]|]. split; [rewrite LF; lia|]. fold i.
      pose proof (s_at _ _ _ _ S1) as (_ & _ & A3 & A4). rewrite (s_l _ _ _ _ S1) in A3, A4. rewrite Ed in A3. rewrite Ei in A4.
      rewrite E1 in X2. assert (NZ2 : pm i (pI g l) <> 0). { intros Z. apply X2. apply (r_zero (k_rep K)); auto; [|lia]. destruct (pI_phgt g OK l Hl) as [Y _]; [congruence|lia]. }
      apply need_com; auto. revert FC. unfold bcost, dcost, icost, tcost. rewrite A3, A4, (s_ib _ _ _ _ S1), E1 by congruence. lia.
  - right. rewrite E1 in *. pose proof (z_at _ _ _ _ Z2) as (A1 & A2 & A3 & A4). rewrite (z_l _ _ _ _ Z2) in *. fold e in A2.
    assert (T2' : TS (fun m => l <= m < n) pm s c pm2 s2 c2).
    { apply (TS_csame g OK _ _ _ _ _ _ _ _ SM) in T2. rewrite LF in T2. exact T2. }
    assert (E2 : c_ino c2 = i) by apply T2'.
    assert (NN : l + (PE g - match c_ie c2 with Some x => x | None => 0 end) = n) by (rewrite A4, Ei; unfold n; lia).
    assert (GN : forall q, 0 < phgt g q -> pm2 i q <> 0 -> lfirst g q < l \/ n <= lfirst g q).
    { intros q Hq NZ. destruct (N.lt_ge_cases (lfirst g q) l) as [|X1]; auto. destruct (N.lt_ge_cases (lfirst g q) n) as [X2|]; auto. exfalso.
      destruct (Core_blk OK (proj1 K2) (i := i) (p := q)) as (_ & _ & V & _); [exact NZ|].
      assert (PQ : pent q = e). { apply ent_uniq; auto. rewrite Hh, hspan1. fold n. lia. }
      assert (q = P1 e) as ->. { destruct q; cbn [pent] in PQ; rewrite PQ in *; auto; cbn in Hq, V; lia. }
      assert (LE : l = efirst g e) by (cbn [lfirst] in X1; lia).
      destruct G4 as (G4 & _); [|rewrite PI in G4; congruence]. intros (x & Y & _). lia. }
    assert (SP2 : forall m, n <= m -> m < IDB -> SeekPre g pm2 c2 m).
    { intros m Hm1 Hm2. apply (CZ_pre g OK pm2 c2 l m Z2). intros X. exfalso. revert X. apply co_beyond; auto. fold e. rewrite Hh, hspan1. exact Hm1. }
    assert (W2 : CW0 g pm2 c2) by (apply (CZ_CW0 pm2 c2 l); exact Z2).
    assert (RUN2 : shrink_indir g (S f) l (s, c) = ((if freed : bool then iset (iset_ent e 0) else ret tt) ;;; shrink_indir g f n) (s2, c2)).
    { rewrite RUN. rewrite (bind_ok _ _ _ _ _ R2). unfold bind at 1, getc at 1. cbn [snd]. rewrite A2, NN. reflexivity. }
    destruct freed.
    + destruct (G1 eq_refl) as (Y1 & Y2 & Y3). rewrite PI in Y1, Y3.
      destruct (clear_ent pm2 D2 s2 c2 e K2 HIE) as (K3 & T3); [now rewrite E2|intros p Hp; destruct (Y3 p Hp) as [[]|]; auto|].
      set (io := iset_ent e 0 (c_i c2)) in *. exists pm2, (iset_st s2 c2 io), (cset_i io c2). split.
      { rewrite RUN2. unfold bind at 1. rewrite (iset_run g OK). reflexivity. }
      split. { split; [exact K3|]. split; [apply Z2|]. split; [now apply CW0_ci|]. intros m ? ?. apply SeekPre_ci. auto. }
      split; [|exact GN]. eapply (TS_trans g OK); [exact T2'|exact T3|]. intros m Hm. cbv beta. tauto.
    + exists pm2, s2, c2. split; [rewrite RUN2; reflexivity|].
      split. { split; [eapply (KS_D g OK); [|exact K2]; intros p Hp; exact (G2 eq_refl p Hp)|]. split; [apply Z2|]. split; [exact W2|exact SP2]. }
      split; [exact T2'|exact GN].
Qed.

Lemma indir_loop f : forall pm s c l, QS pm s c l -> NDIR g <= l ->
  (l <> efirst g (co_e g l) -> l < NDIR g + INODE_INDIR_BLOCKS g -> c_dirty c = true) ->
  (l < NDIR g + INODE_INDIR_BLOCKS g -> NDIR g + INODE_INDIR_BLOCKS g <= efirst g (co_e g l) + N.of_nat f * PE g) ->
  (l <> efirst g (co_e g l) /\ l < NDIR g + INODE_INDIR_BLOCKS g /\ exists pm' s' c', shrink_indir g f l (s, c) = (Err ENOSPC, (s', c')) /\ NS l pm s c pm' s' c') \/
  exists l' pm' s' c', shrink_indir g f l (s, c) = (Ok l', (s', c')) /\ l <= l' /\ NDIR g + INODE_INDIR_BLOCKS g <= l' /\
    (l < NDIR g + INODE_INDIR_BLOCKS g -> l' = NDIR g + INODE_INDIR_BLOCKS g) /\ (NDIR g + INODE_INDIR_BLOCKS g <= l -> l' = l) /\
    QS pm' s' c' l' /\ GS l l' pm s c pm' s' c'.
Proof.
  pose proof (ok_PE g OK) as HP. pose proof (data_blocks_dir g) as HDB.
  induction f; intros pm s c l Q Hl HD HF.
  - right. exists l, pm, s, c. destruct (N.lt_ge_cases l (NDIR g + INODE_INDIR_BLOCKS g)) as [X|X].
    + exfalso. specialize (HF X). pose proof (entry_rng l ltac:(lia)). change (N.of_nat 0) with 0 in HF. lia.
    + cbn [shrink_indir]. destruct (N.ltb_spec l (NDIR g + INODE_INDIR_BLOCKS g)); [lia|]. split; [reflexivity|].
      split; [lia|]. split; [lia|]. split; [lia|]. split; [auto|]. split; [exact Q|apply GS_refl].
  - destruct (N.lt_ge_cases l (NDIR g + INODE_INDIR_BLOCKS g)) as [X|X].
    2: { right. exists l, pm, s, c. cbn [shrink_indir]. destruct (N.ltb_spec l (NDIR g + INODE_INDIR_BLOCKS g)); [lia|]. split; [reflexivity|].
      split; [lia|]. split; [lia|]. split; [lia|]. split; [auto|]. split; [exact Q|apply GS_refl]. }
    specialize (HF X). assert (HlI : l < IDB) by lia. pose proof (entry_rng l HlI) as ER.
    destruct (co_cases g OK l HlI) as [? ? ? ? ? ? ?|k Hk R HE Hh Ed Ei EL EF PI PT|? ? ? ? ? ? ? ? ? ? ? ? ?]; try lia.
    set (e := co_e g l) in *.
    destruct (indir_step f pm s c l Q Hl X) as [(N1 & N2)|(pm1 & s1 & c1 & R1 & Q1 & G1)]; [auto|left; fold e; auto|]. fold e in R1, Q1, G1.
    set (n := efirst g e + PE g) in *.
    assert (BND : n <= NDIR g + INODE_INDIR_BLOCKS g).
    { unfold n. rewrite EF. unfold INODE_INDIR_BLOCKS. assert (Y : (e - NDIR g + 1) * PE g <= NIND g * PE g) by (apply N.mul_le_mono_r; lia).
      rewrite N.mul_add_distr_r in Y. revert Y. generalize ((e - NDIR g) * PE g) (NIND g * PE g). intros; lia. }
    assert (En : n = efirst g (e + 1)).
    { unfold n. destruct (hcases g (e + 1)) as [? ? ?|? ? Y|? ? Y]; [lia| |]; rewrite Y, EF.
      - replace (e + 1 - NDIR g) with (e - NDIR g + 1) by lia. rewrite N.mul_add_distr_r. lia.
      - replace (e + 1 - NDIR g - NIND g) with 0 by lia. replace (e - NDIR g) with (NIND g - 1) by lia.
        assert (Y' : NIND g * PE g = (NIND g - 1 + 1) * PE g) by (f_equal; lia). rewrite N.mul_add_distr_r in Y'. lia. }
    assert (ST : n < NDIR g + INODE_INDIR_BLOCKS g -> efirst g (co_e g n) = n).
    { intros Y. pose proof (ok_IE g OK). rewrite En at 1. rewrite entry_start; [congruence| |rewrite <- En; lia].
      assert (e + 1 < NDIR g + NIND g); [|lia]. destruct (N.lt_ge_cases (e + 1) (NDIR g + NIND g)); auto. exfalso.
      assert (Z : e + 1 - NDIR g = NIND g) by lia. unfold n in Y. rewrite EF in Y. unfold INODE_INDIR_BLOCKS in Y.
      replace (e - NDIR g) with (NIND g - 1) in Y by lia. assert (Y' : NIND g * PE g = (NIND g - 1 + 1) * PE g) by (f_equal; lia). rewrite N.mul_add_distr_r in Y'.
      revert Y Y'. generalize ((NIND g - 1) * PE g) (NIND g * PE g). intros; lia. }
    destruct (IHf pm1 s1 c1 n Q1) as [(Y1 & Y2 & _)|(l' & pm2 & s2 & c2 & R2 & L1 & L2 & L3 & L4 & Q2 & G2)].
    + lia.
    + intros Y1 Y2. specialize (ST Y2). congruence.
    + intros Y. rewrite ST by auto. revert HF. rewrite Nat2N.inj_succ, N.mul_succ_l. unfold n. generalize (N.of_nat f * PE g). intros; lia.
    + specialize (ST Y2). congruence.
    + right. exists l', pm2, s2, c2. split; [rewrite R1; exact R2|]. split; [lia|]. split; [auto|].
      split. { intros _. destruct (N.lt_ge_cases n (NDIR g + INODE_INDIR_BLOCKS g)); [auto|]. rewrite L4; lia. }
      split; [lia|]. split; [exact Q2|]. eapply GS_trans; [| |exact G1|exact G2]; lia.
Qed.

Lemma dindir_step f pm s c l : QS pm s c l -> NDIR g + INODE_INDIR_BLOCKS g <= l -> l < IDB ->
  (l <> efirst g (co_e g l) -> c_dirty c = true) ->
  let n := N.min (efirst g (co_e g l) + PE g * PE g) IDB in
  (l <> efirst g (co_e g l) /\ exists pm' s' c', shrink_dindir g (S f) l (s, c) = (Err ENOSPC, (s', c')) /\ NS l pm s c pm' s' c') \/
  exists pm' s' c', shrink_dindir g (S f) l (s, c) = shrink_dindir g f n (s', c') /\ QS pm' s' c' n /\ GS l n pm s c pm' s' c'.
Proof.
  intros (KSx & PB & W & SP) H1 Hl HD n.
  pose proof (ok_PE g OK) as HP.
  destruct (co_cases g OK l Hl) as [? ? ? ? ? ? ?|? ? ? ? ? ? ? ? ? ? ?|d k Hd Hk LB HE Hh Ed Ei EL EF PI PT]; try lia.
  set (e := co_e g l) in *. set (i := c_ino c) in *. pose proof KSx as (K & M & B).
  assert (HIE : e < IE g) by lia.
  destruct (SeekInode_spec g OK C0 D0 R0 s c Dnone pm LM l K M Hl (SP l ltac:(lia) Hl)) as (c1 & R1 & SM & S1); try (intros []).
  fold i in R1.
  assert (PB1 : c_pb c1 = false). { pose proof (keepb_Seek g OK l s c PB) as X. rewrite R1 in X. destruct (pm i (pT g l) =? 0); exact X. }
  assert (K1 : KS pm Dnone s c1) by (eapply (KS_csame g OK); eauto).
  assert (E1 : c_ino c1 = i) by apply SM.
  pose proof (s_at _ _ _ _ S1) as (A1 & A2 & A3 & A4). rewrite (s_l _ _ _ _ S1) in *. fold e in A2.
  assert (FBL : FBp g pm i l -> l <> efirst g e).
  { intros X. unfold FBp in X. rewrite Ed, Ei in X. destruct X as [(d1 & d2 & Y1 & Y2 & _)|(k1 & Y1 & (k2 & Y2 & _))]; injection Y1 as <-.
    - assert (1 * PE g <= d * PE g) by (apply N.mul_le_mono_r; lia). lia.
    - lia. }
  assert (DK : d * PE g + k < PE g * PE g).
  { assert ((d + 1) * PE g <= PE g * PE g) by (apply N.mul_le_mono_r; lia). rewrite N.mul_add_distr_r in H. lia. }
  assert (RUN : shrink_dindir g (S f) l (s, c) =
     (freed <- TruncDindir g ;; (if freed : bool then iset (iset_ent e 0) else ret tt) ;;; shrink_dindir g f n) (s, c1)).
  { cbn [shrink_dindir]. destruct (N.ltb_spec l IDB); [|lia].
    unfold bind at 1. rewrite (attempt_run _ _ _ _ R1).
    assert (NN : l + N.min (DINDIR_DATA_BLOCKS g - match c_de c1 with Some d => d | None => 0 end * PE g - match c_ie c1 with Some k => k | None => 0 end) (IDB - l) = n).
    { rewrite A3, A4, Ed, Ei. unfold n, DINDIR_DATA_BLOCKS. revert EL DK. generalize (d * PE g) (PE g * PE g). intros; lia. }
    rewrite <- NN, <- A2. destruct (pm i (pT g l) =? 0); reflexivity. }
  assert (NB : l < n) by (unfold n; revert EL DK; generalize (d * PE g) (PE g * PE g); intros; lia).
  destruct (TruncDindir_spec g OK C0 D0 R0 pm s c1 l d k K1 S1 PB1 Hl Ed Ei) as
     [(NZ & FC & pm' & s' & c' & R2 & K2 & T2 & W2 & FN2)|(freed & pm2 & D2 & s2 & c2 & R2 & K2 & T2 & PB2 & W2 & Ee2 & G1 & G2 & G3 & G4)].
  { rewrite E1. intros X. assert (Y : c_dirty c1 = c_dirty c) by apply SM. rewrite Y. apply HD. auto. }
  - left. rewrite E1 in NZ. split; [auto|]. exists pm', s', c'. split.
    + rewrite RUN. unfold bind at 1. now rewrite R2.
    + split; [exact K2|]. split; [eapply (TS_csame g OK); eauto|]. split; [exact W2|]. split; [exact FC|]. rewrite E1 in FN2. exact FN2.
  - right. rewrite E1 in *. fold e in T2, Ee2, G1, G3, G4.
    assert (T2' : TS (fun m => l <= m < n) pm s c pm2 s2 c2).
    { apply (TS_csame g OK _ _ _ _ _ _ _ _ SM) in T2.
      eapply (TS_trans g OK); [exact T2|apply (TS_refl g OK) with (P := fun _ => False); tauto|]. intros m Hm. cbv beta.
      assert (m < n <-> m < efirst g e + PE g * PE g) by (unfold n; lia). tauto. }
    assert (E2 : c_ino c2 = i) by apply T2'.
    assert (GN : forall q, 0 < phgt g q -> pm2 i q <> 0 -> lfirst g q < l \/ n <= lfirst g q).
    { intros q Hq NZ. destruct (N.lt_ge_cases (lfirst g q) l) as [|X1]; auto. destruct (N.lt_ge_cases (lfirst g q) n) as [X2|]; auto. exfalso.
      destruct (Core_blk OK (proj1 K2) (i := i) (p := q)) as (_ & _ & V & _); [exact NZ|].
      assert (PQ : pent q = e).
      { apply ent_uniq; auto. rewrite Hh, hspan2. unfold n in X2. revert X1 X2 EL. generalize (d * PE g) (PE g * PE g). intros; lia. }
      assert (lfirst g q < l); [|lia]. apply G3; auto. destruct q; cbn [pent] in PQ; rewrite PQ; eauto. cbn in Hq. lia. }
    assert (SP2 : forall m, n <= m -> m < IDB -> SeekPre g pm2 c2 m).
    { intros m Hm1 Hm2. split; [exact W2|]. intros _ X. exfalso. rewrite Ee2 in X. symmetry in X. revert X. apply co_beyond; auto. fold e. rewrite Hh, hspan2. unfold n in Hm1. lia. }
    assert (RUN2 : shrink_dindir g (S f) l (s, c) = ((if freed : bool then iset (iset_ent e 0) else ret tt) ;;; shrink_dindir g f n) (s2, c2)).
    { rewrite RUN. rewrite (bind_ok _ _ _ _ _ R2). reflexivity. }
    destruct freed.
    + destruct (G1 eq_refl) as (Y1 & Y3).
      destruct (clear_ent pm2 D2 s2 c2 e K2 HIE) as (K3 & T3); [now rewrite E2|auto|].
      set (io := iset_ent e 0 (c_i c2)) in *. exists pm2, (iset_st s2 c2 io), (cset_i io c2). split.
      { rewrite RUN2. unfold bind at 1. rewrite (iset_run g OK). reflexivity. }
      split. { split; [exact K3|]. split; [exact PB2|]. split; [now apply CW0_ci|]. intros m ? ?. apply SeekPre_ci. auto. }
      split; [|exact GN]. eapply (TS_trans g OK); [exact T2'|exact T3|]. intros m Hm. cbv beta. tauto.
    + exists pm2, s2, c2. split; [rewrite RUN2; reflexivity|].
      split. { split; [eapply (KS_D g OK); [|exact K2]; intros p Hp; exact (G2 eq_refl p Hp)|]. split; [exact PB2|]. split; [exact W2|exact SP2]. }
      split; [exact T2'|exact GN].
Qed.

Lemma dindir_loop f : forall pm s c l, QS pm s c l -> NDIR g + INODE_INDIR_BLOCKS g <= l ->
  (l <> efirst g (co_e g l) -> l < IDB -> c_dirty c = true) ->
  (l < IDB -> IDB <= efirst g (co_e g l) + N.of_nat f * (PE g * PE g)) ->
  (l <> efirst g (co_e g l) /\ l < IDB /\ exists pm' s' c', shrink_dindir g f l (s, c) = (Err ENOSPC, (s', c')) /\ NS l pm s c pm' s' c') \/
  exists pm' s' c', shrink_dindir g f l (s, c) = (Ok tt, (s', c')) /\ QS pm' s' c' (N.max l IDB) /\ GS l (N.max l IDB) pm s c pm' s' c'.
Proof.
  pose proof (ok_PE g OK) as HP. assert (HQ : 0 < PE g * PE g) by nia.
  induction f; intros pm s c l Q Hl HD HF.
  - right. exists pm, s, c. destruct (N.lt_ge_cases l IDB) as [X|X].
    + exfalso. specialize (HF X). pose proof (entry_rng l X). change (N.of_nat 0) with 0 in HF. lia.
    + cbn [shrink_dindir]. destruct (N.ltb_spec l IDB); [lia|]. split; [reflexivity|]. rewrite N.max_l by auto. split; [exact Q|apply GS_refl].
  - destruct (N.lt_ge_cases l IDB) as [X|X].
    2: { right. exists pm, s, c. cbn [shrink_dindir]. destruct (N.ltb_spec l IDB); [lia|]. split; [reflexivity|]. rewrite N.max_l by auto. split; [exact Q|apply GS_refl]. }
    specialize (HF X). pose proof (entry_rng l X) as ER.
    destruct (co_cases g OK l X) as [? ? ? ? ? ? ?|? ? ? ? ? ? ? ? ? ? ?|d k Hd Hk LB HE Hh Ed Ei EL EF PI PT]; try lia.
    set (e := co_e g l) in *. rewrite Hh, hspan2 in ER.
    destruct (dindir_step f pm s c l Q Hl X) as [(N1 & N2)|(pm1 & s1 & c1 & R1 & Q1 & G1)]; [auto|left; fold e; auto|]. fold e in R1, Q1, G1.
    set (n := N.min (efirst g e + PE g * PE g) IDB) in *.
    assert (LN : l <= n /\ NDIR g + INODE_INDIR_BLOCKS g <= n /\ n <= IDB) by (unfold n; lia).
    assert (En : n < IDB -> n = efirst g (e + 1)).
    { intros Y. assert (n = efirst g e + PE g * PE g) as -> by (unfold n in *; lia).
      destruct (hcases g (e + 1)) as [? ? ?|? ? Z|? ? Z]; [lia|lia|]. rewrite Z, EF.
      replace (e + 1 - NDIR g - NIND g) with (e - NDIR g - NIND g + 1) by lia. rewrite N.mul_add_distr_r. lia. }
    assert (ST : n < IDB -> efirst g (co_e g n) = n).
    { intros Y. rewrite (En Y) at 1. rewrite entry_start; [symmetry; auto| |rewrite <- En; auto].
      destruct (N.lt_ge_cases (e + 1) (IE g)) as [|C]; auto. exfalso. pose proof (data_blocks_cap g OK) as CAP.
      assert (Z : (e - NDIR g - NIND g + 1) = DINDIR_POINTERS g) by (unfold DINDIR_POINTERS; lia).
      rewrite <- Z, N.mul_add_distr_r in CAP. assert (Y' : efirst g e + PE g * PE g < IDB) by (unfold n in Y; lia). rewrite EF in Y'.
      revert CAP Y'. generalize ((e - NDIR g - NIND g) * (PE g * PE g)) (PE g * PE g) (NIND g * PE g). intros; lia. }
    destruct (IHf pm1 s1 c1 n Q1) as [(Y1 & Y2 & _)|(pm2 & s2 & c2 & R2 & Q2 & G2)].
    + apply LN.
    + intros Y1 Y2. specialize (ST Y2). congruence.
    + intros Y. rewrite ST by auto. revert HF. rewrite Nat2N.inj_succ, N.mul_succ_l. unfold n in *. generalize (N.of_nat f * (PE g * PE g)). intros; lia.
    + specialize (ST Y2). congruence.
    + right. exists pm2, s2, c2. split; [rewrite R1; exact R2|]. rewrite N.max_r in * by lia. split; [exact Q2|].
      eapply GS_trans; [| |exact G1|exact G2]; lia.
Qed.
End Trunc.
