(** Truncating file data: indirect and double indirect nodes. *)
From Verif Require Import Base Count FsState FsImap FsInode FsData FsTree FsImapProof FsWp FsInv FsStep FsSeek FsBranch FsRead FsWrite FsWrite2 FsTrunc.
Ltac Zify.zify_post_hook ::= idtac.

Section Trunc.
Variable g : cfg.
Hypothesis OK : cfg_ok g.
Set Default Proof Using "OK".
Notation IDB := (INODE_DATA_BLOCKS g).

Lemma pI_first l ie : l < IDB -> co_ie g l = Some ie -> lfirst g (pI g l) + ie = l /\ ie < PE g.
Proof.
  intros Hl E. destruct (co_cases g OK l Hl) as [? ? ? Ei ? ? ?|k ? ? ? Hh ? Ei ? ? Ep ?|d k ? ? ? ? Hh ? Ei ? ? Ep ?]; rewrite E in Ei;
    try discriminate; injection Ei as ->; rewrite Ep; cbn [lfirst]; split; auto.
  rewrite Hh. change (2 =? 2) with true. cbn iota. lia.
Qed.
Lemma pT_pI l ie : co_ie g l = Some ie -> pT g l = child (pI g l) ie.
Proof. intros E. unfold pT. now rewrite E. Qed.
Lemma pD_ne_pI l : co_de g l <> None -> pD g l <> pI g l.
Proof. unfold pD, pI. destruct (co_de g l); [discriminate|congruence]. Qed.
Lemma pI_child l d : co_de g l = Some d -> pI g l = child (pD g l) d.
Proof. intros E. unfold pI. now rewrite E. Qed.

(** What is left of the coherence of the coordinates after truncating at [l]. *)
Record CZ (pm : pmap) (c : cin) (l : N) : Prop := {
  z_ini : c_inited c = true; z_l : c_l c = l; z_at : AtL g c; z_pb : c_pb c = false;
  z_db : c_de c <> None -> c_db c = pm (c_ino c) (pD g l);
  z_pd : c_pd c = true -> c_de c <> None /\ c_db c <> 0;
  z_pi : c_pi c = true -> c_ie c <> None /\ c_ib c <> 0 /\ c_ib c = pm (c_ino c) (pI g l) }.
Lemma CS_CZ pm c l : CS g pm c l -> c_pb c = false -> CZ pm c l.
Proof.
  intros S B. constructor; try apply S; auto.
  intros H. destruct (s_pi _ _ _ _ S H) as [H1 H2]. split; [|split]; auto. now apply (s_ib _ _ _ _ S).
Qed.
Lemma CZ_pre pm c l m : CZ pm c l -> (co_e g m = co_e g l -> co_de g l <> None) -> SeekPre g pm c m.
Proof.
  intros Z HE. pose proof (z_at _ _ _ Z) as A. destruct A as (A1 & A2 & A3 & A4).
  rewrite (z_l _ _ _ Z) in *. split.
  - constructor.
    + intros _. apply Z.
    + intros H. destruct (z_pd _ _ _ Z H). rewrite (z_l _ _ _ Z). split; [apply Z|]. split; [auto|]. split; auto. now apply Z.
    + intros H. destruct (z_pi _ _ _ Z H) as (? & ? & ?). rewrite (z_l _ _ _ Z). split; [apply Z|]. auto.
    + intros H. rewrite (z_pb _ _ _ Z) in H. discriminate.
  - intros _ E. rewrite A2 in E. symmetry in E. specialize (HE E). rewrite <- A3 in HE. intros _. rewrite (z_l _ _ _ Z).
    split; [intros; now apply Z|]. split; [congruence|].
    intros E4. rewrite A4 in E4. rewrite A3 in HE. destruct (co_cases g OK l A1); congruence.
Qed.

Variable C0 : mroot.
Variable D0 : N -> blk.
Variable R0 : bool.
Notation Core := (Core g C0 D0 R0).
Notation KS := (KS g C0 D0 R0).
Notation TS := (TS g).
Notation LM := (INODE_SIZE_MAX g).

Lemma l_LM l : l < IDB -> l * BS g < LM.
Proof using OK. clear C0 D0 R0. intros H. unfold INODE_SIZE_MAX. rewrite (N.mul_comm (BS g)). apply N.mul_lt_mono_pos_r; auto. apply (BSp g OK). Qed.

Lemma KS_zero pm D s c p k : KS pm D s c -> pm (c_ino c) p = 0 -> 0 < phgt g p -> k < PE g -> pm (c_ino c) (child p k) = 0.
Proof. intros (K & _) H1 H2 H3. apply (r_zero (k_rep K)); auto. Qed.

(** the entries of an indirect node, as read from the disk *)
Lemma indir_read pm D s c q : KS pm D s c -> pm (c_ino c) q <> 0 -> phgt g q = 1 -> (forall k, k < PE g -> ~ D (child q k)) ->
  exists e, get_indir (pm (c_ino c) q) s = (Ok e, s) /\ forall k, k < PE g -> e k = pm (c_ino c) (child q k).
Proof.
  intros (K & _) Hq Hh HD. destruct (r_node (k_rep K) (c_ino c) q Hq) as (o & f & E & HE); [lia|].
  exists f. split.
  - unfold get_indir. rewrite E. unfold mknode. rewrite Hh. reflexivity.
  - intros k Hk. apply HE; auto. intros [_ X]. now apply (HD k).
Qed.

(** TS of a branch *)
Lemma PH_TS L l pm s c pm' s' c' : l < IDB -> PH g C0 D0 R0 L l pm s c pm' s' c' ->
  (forall x, blkc g pm' s' (c_ino c) l x = blkc g pm s (c_ino c) l x) ->
  pm' (c_ino c) (pT g l) = pm (c_ino c) (pT g l) ->
  (forall p, 0 < phgt g p -> pm' (c_ino c) p <> 0 -> pm (c_ino c) p <> 0) ->
  TS (fun _ => False) pm s c pm' s' c'.
Proof.
  intros Hl P HB HT HN. split; [apply P|]. split; [apply P|].
  assert (B : BB g (c_ino c) l pm s pm' s') by apply P.
  assert (PT : forall m, m < IDB -> pm' (c_ino c) (pT g m) = pm (c_ino c) (pT g m)).
  { intros m Hm. destruct (N.eq_dec m l) as [->|Hn]; [exact HT|]. apply (pT_ne_node g OK _ _ _ _ _ _ Hl B); auto. }
  constructor; auto.
  - intros j q Hj. apply (bb_pm _ _ _ _ _ _ _ B). now left.
  - intros m _ [].
  - intros m Hm Z. rewrite PT; auto.
  - intros j m x Hm _. destruct (N.eq_dec j (c_ino c)) as [->|Hj].
    + destruct (N.eq_dec m l) as [->|Hn]; [apply HB|]. apply (BB_blkc g OK _ _ _ _ _ _ Hl B); auto.
    + apply (BB_blkc g OK _ _ _ _ _ _ Hl B); auto.
  - apply B.
Qed.

Definition nzb (pm : pmap) (i : N) (q : ptr) (n : N) : Prop := exists k, k < n /\ pm i (child q k) <> 0.

Lemma pT_IDB l k : l < IDB -> co_ie g l <> None -> k < PE g -> phgt g (child (pI g l) k) = 0 /\ 0 < phgt g (pI g l).
Proof using OK.
  clear C0 D0 R0. intros Hl Hn Hk. destruct (pI_phgt g OK l Hl Hn) as [H1 H2]. rewrite (child_phgt g); auto; lia.
Qed.

Lemma TruncIndir_spec pm (D : ptr -> Prop) s c l ie :
  KS pm D s c -> CS g pm c l -> c_pb c = false -> l < IDB -> co_ie g l = Some ie ->
  (forall k, k < PE g -> ~ D (child (pI g l) k)) ->
  (nzb pm (c_ino c) (pI g l) ie -> (forall p, ~ D p) /\ c_dirty c = true) ->
  (nzb pm (c_ino c) (pI g l) ie /\ FreeBlockCount g s < bcost s c BD_INDIR /\ TruncIndir g (s, c) = (Err ENOSPC, (s, c))) \/
  exists freed pm' D' s' c', TruncIndir g (s, c) = (Ok freed, (s', c')) /\
    KS pm' D' s' c' /\ TS (fun m => l <= m < lfirst g (pI g l) + PE g) pm s c pm' s' c' /\ CZ pm' c' l /\
    (freed = true -> pm' (c_ino c) (pI g l) = 0 /\ c_pi c' = false /\ forall p, D' p -> D p \/ p = pI g l) /\
    (freed = false -> forall p, D' p -> D p) /\
    (nzb pm (c_ino c) (pI g l) ie -> freed = false) /\
    (~ nzb pm (c_ino c) (pI g l) ie -> pm' (c_ino c) (pI g l) = 0 /\ c_pi c' = false /\ pm' (c_ino c) (pD g l) = (if co_de g l then pm (c_ino c) (pD g l) else 0)) /\
    (forall j q, 0 < phgt g q -> q <> pI g l -> q <> pD g l -> pm' j q = pm j q) /\
    (co_de g l <> None -> pm (c_ino c) (pD g l) <> 0 -> com s (pm (c_ino c) (pD g l)) = false ->
       pm' (c_ino c) (pD g l) <> 0 /\ com s (pm' (c_ino c) (pD g l)) = false).
Proof.
  intros KSx S HPB Hl Hie HD HNZ. set (i := c_ino c) in *. pose proof KSx as (K & M & HB).
  assert (Hn : co_ie g l <> None) by congruence.
  destruct (pI_phgt g OK l Hl Hn) as [Hh V]. destruct (pI_first l ie Hl Hie) as [HF Hk].
  pose proof (s_at _ _ _ _ S) as (A1 & A2 & A3 & A4). rewrite (s_l _ _ _ _ S) in *.
  assert (SC : forall m, m < IDB -> lfirst g (pI g l) <= m < lfirst g (pI g l) + PE g -> pT g m = child (pI g l) (m - lfirst g (pI g l))).
  { intros m Hm Hr. rewrite (slot_child g OK); auto; [f_equal; lia|lia]. }
  assert (Eib : c_ib c = pm i (pI g l)) by (apply S; congruence).
  assert (Edb : co_de g l <> None -> c_db c = pm i (pD g l)) by (intros; apply S; congruence).
  assert (PDI : co_de g l = None -> pD g l = pI g l) by (intros E; unfold pD, pI; now rewrite E).
  destruct (N.eq_dec (pm i (pI g l)) 0) as [Z|NZ].
  { (* nothing there *)
    right. exists false, pm, D, s, c.
    assert (Epi : c_pi c = false). { destruct (c_pi c) eqn:E; auto. destruct (s_pi _ _ _ _ S E). congruence. }
    assert (ZC : forall k, k < PE g -> pm i (child (pI g l) k) = 0) by (intros; apply (r_zero (k_rep K)); auto; lia).
    split.
    { unfold TruncIndir. unfold bind at 1, getc at 1. cbn [snd]. rewrite (CM_mounted g OK _ _ M), Epi. reflexivity. }
    split; [exact KSx|]. split.
    { apply (TS_refl g OK). fold i. intros m Hm Hr. rewrite SC by lia. apply ZC. lia. }
    split; [now apply CS_CZ|]. split; [discriminate|]. split; [auto|]. split; [auto|]. split.
    { intros _. split; [exact Z|]. split; [exact Epi|]. destruct (co_de g l) eqn:E; auto. now rewrite PDI. }
    split; [auto|]. intros. split; auto. }
  destruct (indir_read pm D s c (pI g l) KSx NZ Hh HD) as (e & Re & He). fold i in Re, He.
  assert (Epi : c_pi c = true). { apply S; congruence. }
  set (n := N.min (PE g) (IDB - (l - ie))).
  assert (RUN : TruncIndir g (s, c) =
    ((if any_nz e (N.to_nat ie) then BranchBlock g BD_INDIR false else ret tt) ;;;
     c' <- getc ;;
     loop (N.to_nat (N.min (PE g) (IDB - (c_l c' - ie)) - ie)) ie (tbody g (c_ib c') (any_nz e (N.to_nat ie))) ;;;
     (if any_nz e (N.to_nat ie) then ret tt else modc PutIndir ;;; lift (RedImapBlockSet g (c_ib c') false)) ;;;
     ret (negb (any_nz e (N.to_nat ie)))) (s, c)).
  { unfold TruncIndir. unfold bind at 1, getc at 1. cbn [snd]. rewrite (CM_mounted g OK _ _ M), Epi. cbn [negb].
    unfold bind at 1, lift at 1. cbn [fst snd]. rewrite A4, Hie, Eib, Re. reflexivity. }
  assert (FBE : any_nz e (N.to_nat ie) = true <-> nzb pm i (pI g l) ie).
  { rewrite any_nz_spec, N2Nat.id by exact OK. unfold nzb. split; intros (k & H1 & H2); exists k; split; auto; rewrite He in *; auto; lia. }
  assert (CAP : forall k, n <= k < PE g -> forall pm1 D1 s1 c1, KS pm1 D1 s1 c1 -> pm1 (c_ino c1) (child (pI g l) k) = 0).
  { intros k Hr pm1 D1 s1 c1 K1. destruct (N.eq_dec (pm1 (c_ino c1) (child (pI g l) k)) 0) as [|X]; auto.
    pose proof (KS_lim g OK _ _ _ _ _ _ _ _ K1 X) as Y. rewrite (lfirst_child g) in Y by (auto; lia).
    rewrite Hh in Y. change (hspan g (1 - 1)) with 1 in Y. unfold n in Hr. lia. }
  destruct (any_nz e (N.to_nat ie)) eqn:FB.
  - (* branch and keep the node *)
    assert (NB : nzb pm i (pI g l) ie) by now apply FBE. destruct (HNZ NB) as [HDn Hd].
    assert (K0 : Core i (c_i c) LM pm Dnone s). { eapply (Core_D OK); [|exact K]. intros p Hp. destruct (HDn p Hp). }
    destruct (BranchBlock_spec g OK C0 D0 R0 LM pm s c l BD_INDIR false) as [[F1 F2]|(pm1 & s1 & c1 & F1 & F2 & P & ON & OFF & _ & BLK)]; auto.
    { now apply l_LM. }
    { intros _ p [[X ->]|[(X & _ & ->)|[X _]]]; try discriminate; auto.
      intros Zd. fold i in Zd. apply NZ. destruct (co_de g l) as [d|] eqn:Ed; [|congruence].
      rewrite (pI_child l d Ed). apply (r_zero (k_rep K)); auto.
      - destruct (pD_phgt g OK l Hl) as [-> _]; [congruence|lia].
      - destruct (co_cases g OK l Hl); congruence. }
    + left. split; [exact NB|]. split; [exact F1|]. rewrite RUN. unfold bind at 1. now rewrite F2.
    + right. fold i in ON, OFF, BLK.
      assert (PB1 : c_pb c1 = false). { pose proof (keepb_Branch g OK BD_INDIR false ltac:(discriminate) s c HPB) as X. rewrite F2 in X. exact X. }
      pose proof (ph_cs _ _ _ _ _ _ _ _ _ _ _ _ P) as S1.
      assert (EI : c_ino c1 = i) by (apply P).
      assert (K1 : KS pm1 Dnone s1 c1).
      { split; [|split].
        - rewrite EI. exact (ph_core _ _ _ _ _ _ _ _ _ _ _ _ P).
        - exact (ph_cm _ _ _ _ _ _ _ _ _ _ _ _ P).
        - rewrite EI. exact (ph_nb _ _ _ _ _ _ _ _ _ _ _ _ P). }
      assert (OI : onpath g l BD_INDIR (pI g l)) by (right; left; split; [auto|split; [discriminate|auto]]).
      destruct (ON _ OI) as [NZ1 CM1].
      assert (NOT : forall m, m < IDB -> ~ onpath g l BD_INDIR (pT g m)).
      { intros m Hm. pose proof (pT_phgt g OK m Hm) as X. intros [[Y E]|[(Y & _ & E)|[Y _]]]; try discriminate; rewrite E in X.
        - destruct (pD_phgt g OK l Hl Y); lia.
        - lia. }
      assert (TS1 : TS (fun _ => False) pm s c pm1 s1 c1).
      { eapply PH_TS; eauto.
        - apply BLK. right. discriminate.
        - intros p Hp Hz. destruct (N.eq_dec (pm i p) 0) as [Zp|]; auto. exfalso.
          assert (ONP : onpath g l BD_INDIR p -> False); [|].
          { intros [[Y ->]|[(Y & _ & ->)|[Y _]]]; try discriminate.
            - apply NZ. destruct (co_de g l) as [d|] eqn:Ed; [|congruence].
              rewrite (pI_child l d Ed). apply (r_zero (k_rep K)); auto. destruct (co_cases g OK l Hl); congruence.
            - apply NZ. exact Zp. }
          fold i in Hz. rewrite OFF in Hz by exact ONP. congruence. }
      assert (S1' : CS g pm1 c1 l) by exact S1.
      assert (El : c_l c1 = l) by apply S1. pose proof (s_at _ _ _ _ S1) as (_ & _ & B3 & B4). rewrite El in *.
      assert (Eib1 : c_ib c1 = pm1 (c_ino c1) (pI g l)) by (apply S1; congruence).
      assert (COM : forall b, com s1 b = com s b) by (intros; eapply (KS_com g OK); eauto).
      destruct (tloop_spec g OK C0 D0 R0 (pI g l) true (N.to_nat (n - ie)) ie pm1 Dnone s1 c1) as (pm2 & D2 & s2 & io2 & R2 & K2 & T2 & N2 & DD2); auto.
      { now rewrite EI. }
      { intros _. now rewrite EI, COM. }
      { unfold n. lia. }
      { unfold n. lia. }
      exists false, pm2, D2, s2, (cset_i io2 c1).
      assert (TSx : TS (fun m => l <= m < lfirst g (pI g l) + PE g) pm s c pm2 s2 (cset_i io2 c1)).
      { eapply (TS_trans g OK); [exact TS1|exact T2|]. intros m Hm. cbv beta. unfold n. rewrite N2Nat.id. lia. }
      assert (E2 : forall p, 0 < phgt g p -> pm2 i p = pm1 i p) by (intros; apply N2; auto).
      split.
      { rewrite RUN. unfold bind at 1. rewrite F2. cbv beta iota. unfold bind at 1, getc at 1. cbn [snd]. rewrite El. fold n.
        rewrite Eib1. unfold bind at 1. rewrite R2. reflexivity. }
      split; [exact K2|]. split; [exact TSx|]. split.
      { pose proof (CS_CZ _ _ _ S1 PB1) as [Z1 Z2 Z3 Z4 Z5 Z6 Z7]. constructor; auto; cbn; rewrite EI in *.
        - intros X. rewrite Z5 by auto. symmetry. apply E2. destruct (pD_phgt g OK l Hl); [congruence|lia].
        - intros X. destruct (Z7 X) as (Y1 & Y2 & Y3). split; [|split]; auto. rewrite Y3. symmetry. apply E2. lia. }
      split; [discriminate|]. split.
      { intros _ p Hp. destruct (DD2 p Hp) as [[]|[X _]]. discriminate. }
      split; [auto|]. split; [intros X; contradiction|]. split.
      { intros j q Hq X1 X2. rewrite N2, OFF; auto. intros [[Y E]|[(Y & _ & E)|[Y _]]]; congruence. }
      intros X Y _. rewrite E2 by (destruct (pD_phgt g OK l Hl); [auto|lia]).
      apply ON. left. auto.
  - (* free the node *)
    right. assert (NB : ~ nzb pm i (pI g l) ie) by (rewrite <- FBE; congruence).
    destruct (tloop_spec g OK C0 D0 R0 (pI g l) false (N.to_nat (n - ie)) ie pm D s c) as (pm2 & D2 & s2 & io2 & R2 & K2 & T2 & N2 & DD2); auto.
    { discriminate. }
    { unfold n. lia. }
    { unfold n. lia. }
    { intros k' Hk'. apply HD. lia. }
    fold i in R2. set (c2 := PutIndir (cset_i io2 c)).
    assert (SM : csame (cset_i io2 c) c2) by (repeat split).
    assert (EQ2 : pm2 i (pI g l) = pm i (pI g l)) by (apply N2; lia).
    assert (TR2 : TR g i (fun x => lfirst g (pI g l) + ie <= x < lfirst g (pI g l) + ie + N.of_nat (N.to_nat (n - ie))) pm s pm2 s2) by apply T2.
    destruct (free_node g OK C0 D0 R0 pm2 D2 (fun p => D p \/ p = pI g l) s2 c2 (pI g l)) as (s3 & R3 & K3 & T3).
    { eapply (KS_csame g OK); eauto. }
    { cbn. fold i. congruence. }
    { lia. }
    { cbn. fold i. intros k Hkk.
      destruct (N.lt_ge_cases k ie) as [L1|L1].
      - assert (X : pm i (child (pI g l) k) = 0).
        { destruct (N.eq_dec (pm i (child (pI g l) k)) 0); auto. destruct NB. exists k. auto. }
        destruct (N.lt_ge_cases (lfirst g (pI g l) + k) IDB) as [Lm|Lm]; [|lia].
        rewrite (slot_child g OK) in * by auto. apply (tr_z _ _ _ _ _ _ _ TR2); auto.
      - destruct (N.lt_ge_cases k n) as [L2|L2].
        + assert (lfirst g (pI g l) + k < IDB) by (unfold n in L2; lia).
          rewrite (slot_child g OK) by auto. apply (tr_zero _ _ _ _ _ _ _ TR2); auto. rewrite N2Nat.id. lia.
        + specialize (CAP k (conj L2 Hkk) _ _ _ _ K2). exact CAP. }
    { now right. }
    { intros p Hp. destruct (DD2 p Hp) as [X|[_ X]]; auto. }
    set (pm3 := pupd pm2 i (pI g l) 0) in *.
    assert (N3 : forall j q, 0 < phgt g q -> q <> pI g l -> pm3 j q = pm j q).
    { intros j q Hq Hne. unfold pm3. rewrite pupd_ptr by auto. now apply N2. }
    exists true, pm3, (fun p => D p \/ p = pI g l), s3, c2. split.
    { rewrite RUN. unfold bind at 1, ret at 1. cbv beta iota. unfold bind at 1, getc at 1. cbn [snd].
      rewrite (s_l _ _ _ _ S). fold n. rewrite Eib. unfold bind at 1. rewrite R2. cbv beta iota.
      unfold bind at 1. unfold bind at 1, modc at 1. cbn [fst snd]. fold c2. unfold lift. cbn [fst snd].
      change (c_ino c2) with i in R3. rewrite EQ2 in R3. rewrite R3. reflexivity. }
    split; [exact K3|]. split.
    { eapply (TS_trans g OK); [eapply (TS_csame' g OK); [exact SM|exact T2]|exact T3|].
      intros m Hm. cbv beta. rewrite N2Nat.id. unfold n. lia. }
    assert (Z3 : pm3 i (pI g l) = 0) by apply pupd_same.
    assert (PDq : co_de g l <> None -> pm3 i (pD g l) = pm i (pD g l)).
    { intros X. apply N3; [destruct (pD_phgt g OK l Hl); auto; lia|now apply pD_ne_pI]. }
    split.
    { constructor; auto; try apply S.
      - cbn. intros X. fold i. rewrite PDq by congruence. apply Edb. congruence.
      - cbn. discriminate. }
    split; [intros _; split; [auto|split; auto]|]. split; [discriminate|]. split; [intros X; contradiction|].
    split; [intros _; split; [auto|split; auto]; destruct (co_de g l) eqn:E; [apply PDq; congruence|rewrite PDI; auto]|].
    split; [auto|]. intros X Y Y'. rewrite PDq; auto.
Qed.

Lemma dcoord e k x : hgt g e = 2 -> e < IE g -> k < PE g -> x < PE g -> efirst g e + k * PE g + x < IDB ->
  let l := efirst g e + k * PE g + x in co_e g l = e /\ co_de g l = Some k /\ co_ie g l = Some x.
Proof using OK.
  clear C0 D0 R0. intros H1 H2 H3 H4 Hl l.
  assert (E : pT g l = P3 e k x). { apply (data_slot g OK (P3 e k x)); [repeat split; auto|reflexivity]. }
  fold l in Hl. destruct (co_cases g OK l Hl) as [? ? ? ? ? ? X|? ? ? ? ? ? ? ? ? ? X|? ? ? ? ? ? ? Ed Ei ? ? ? X]; rewrite E in X; try discriminate.
  injection X as X1 X2 X3. rewrite Ed, Ei. split; [now symmetry|split; now f_equal].
Qed.

(** coherence of the coordinates while truncating inside a double indirect node *)
Definition ZL (pm : pmap) (c : cin) (e : N) : Prop :=
  CW0 g pm c /\ c_pb c = false /\ c_inited c = true /\ c_e c = e /\ c_de c <> None /\ c_db c = pm (c_ino c) (P1 e).
Lemma ZL_pre pm c e m : ZL pm c e -> SeekPre g pm c m.
Proof.
  intros (W & B & I & E & De & Db). pose proof (w_at _ _ _ W I) as (A1 & A2 & A3 & A4).
  split; auto. intros _ _ _. split; [|split].
  - intros _. rewrite Db. unfold pD. congruence.
  - congruence.
  - intros X. rewrite A4 in X. rewrite A3 in De. destruct (co_cases g OK (c_l c) A1); congruence.
Qed.
Lemma CZ_ZL pm c l e : CZ pm c l -> co_e g l = e -> co_de g l <> None -> ZL pm c e.
Proof.
  intros Z E D. pose proof (z_at _ _ _ Z) as (A1 & A2 & A3 & A4). rewrite (z_l _ _ _ Z) in *.
  assert (SP : SeekPre g pm c l) by (eapply CZ_pre; eauto).
  split; [apply SP|]. split; [apply Z|]. split; [apply Z|]. split; [congruence|]. split; [congruence|].
  rewrite (z_db _ _ _ Z) by congruence. unfold pD. congruence.
Qed.
(** ... is not affected by storing to nodes *)
Lemma TS_store pm D s c q k v x : KS pm D s c -> pm (c_ino c) q <> 0 -> 0 < phgt g q ->
  node_set (pm (c_ino c) q) k v s = (Ok tt, dk_write (pm (c_ino c) q) x s) ->
  TS (fun _ => False) pm s c pm (dk_write (pm (c_ino c) q) x s) c /\ CM g (dk_write (pm (c_ino c) q) x s) c.
Proof.
  intros (K & M & B) Hq Hh _. destruct (Core_blk OK K Hq) as (RQ & _). split.
  - split; [apply (cid_refl g OK)|]. split; [apply (meta_refl g OK)|]. constructor; auto; try tauto.
    + intros j m y Hm _. unfold blkc. destruct (N.eqb_spec (pm j (pT g m)) 0) as [|Hz]; auto. cbn. rewrite upd_other; auto.
      intros E. destruct (Core_inj OK K Hz E) as [_ E2]. pose proof (pT_phgt g OK m Hm) as X. rewrite E2 in X. lia.
    + intros b Hb. split; [reflexivity|]. right. cbn. apply upd_other. lia.
  - eapply (CM_dk g OK); eauto. cbn. apply upd_other. pose proof (CM_blk g OK _ _ M). lia.
Qed.

Lemma dloop_spec e fb : hgt g e = 2 -> e < IE g -> forall n k x pm (D : ptr -> Prop) s c l,
  KS pm D s c -> k + N.of_nat n <= PE g -> x < PE g -> l = efirst g e + k * PE g + x ->
  ((0 < n)%nat -> l < IDB /\ efirst g e + (k + N.of_nat n) * PE g < IDB + PE g) ->
  ZL pm c e -> pm (c_ino c) (P1 e) <> 0 ->
  (fb = true -> (forall p, ~ D p) /\ c_dirty c = true /\ com s (pm (c_ino c) (P1 e)) = false) ->
  (fb = false -> forall p, D p -> exists k', k' < k /\ p = P2 e k') ->
  (nzb pm (c_ino c) (P2 e k) x -> fb = true) ->
  (nzb pm (c_ino c) (P2 e k) x /\ exists c', csame c c' /\ CS g pm c' l /\ c_pb c' = false /\
     FreeBlockCount g s < bcost s c' BD_INDIR /\ trunc_dindir_loop g n k fb l (s, c) = (Err ENOSPC, (s, c'))) \/
  exists pm' D' s' c', trunc_dindir_loop g n k fb l (s, c) = (Ok tt, (s', c')) /\
    KS pm' D' s' c' /\ TS (fun m => l <= m < efirst g e + (k + N.of_nat n) * PE g) pm s c pm' s' c' /\
    ZL pm' c' e /\
    (fb = true -> (forall p, ~ D' p) /\ pm' (c_ino c) (P1 e) <> 0 /\ com s (pm' (c_ino c) (P1 e)) = false) /\
    (fb = false -> pm' (c_ino c) (P1 e) = pm (c_ino c) (P1 e) /\ (forall p, D' p -> exists k', k' < k + N.of_nat n /\ p = P2 e k') /\
       ((0 < n)%nat -> c_pi c' = false)) /\
    (forall k', k <= k' < k + N.of_nat n -> pm' (c_ino c) (P2 e k') <> 0 -> k' = k /\ nzb pm (c_ino c) (P2 e k) x) /\
    (forall j q, 0 < phgt g q -> q <> P1 e -> (forall k', k <= k' < k + N.of_nat n -> q <> P2 e k') -> pm' j q = pm j q).
Proof.
  intros He HIE. pose proof (ok_PE g OK) as HP. induction n; intros k x pm D s c l KSx Hk Hx El Hl ZLx HQ HF1 HF0 HNZ.
  - right. exists pm, D, s, c. cbn [trunc_dindir_loop]. change (N.of_nat 0) with 0. rewrite N.add_0_r.
    split; [reflexivity|]. split; [exact KSx|]. split; [apply (TS_refl g OK); intros; lia|]. split; [exact ZLx|].
    split; [intros F; destruct (HF1 F) as (? & ? & ?); auto|]. split; [intros F; split; [auto|split; [auto|lia]]|]. split; [intros; lia|auto].
  - assert (Hl' : l < IDB) by (apply Hl; lia). destruct (dcoord e k x) as (Ce & Cd & Ci); auto; try lia. rewrite <- El in *.
    assert (PI : pI g l = P2 e k) by (unfold pI; rewrite Cd, Ce; auto).
    assert (PD : pD g l = P1 e) by (unfold pD; congruence).
    pose proof KSx as (K & M & HB).
    assert (ND : forall p, D p -> exists k', k' < k /\ p = P2 e k').
    { intros p Hp. destruct fb; [destruct (proj1 (HF1 eq_refl) p Hp)|now apply HF0]. }
    destruct (SeekInode_spec g OK C0 D0 R0 s c D pm LM l K M Hl' (ZL_pre _ _ _ l ZLx)) as (c1 & R1 & SM1 & S1).
    { rewrite PD. intros X. destruct (ND _ X) as (? & ? & ?). discriminate. }
    { rewrite PI. intros X. destruct (ND _ X) as (? & ? & E). injection E as ->. lia. }
    { rewrite (pT_pI l x Ci), PI. intros X. destruct (ND _ X) as (? & ? & ?). discriminate. }
    assert (PB1 : c_pb c1 = false).
    { destruct ZLx as (_ & B & _). pose proof (keepb_Seek g OK l s c B) as X. rewrite R1 in X. exact X. }
    assert (EI : c_ino c1 = c_ino c) by apply SM1.
    assert (K1 : KS pm D s c1) by (eapply (KS_csame g OK); eauto).
    pose proof (s_at _ _ _ _ S1) as (_ & B2 & B3 & B4). rewrite (s_l _ _ _ _ S1) in *.
    assert (Eib : c_ib c1 = pm (c_ino c) (P2 e k)). { rewrite (s_ib _ _ _ _ S1) by congruence. now rewrite PI, EI. }
    set (body := (c0 <- getc ;;
      (if c_ib c0 =? 0 then ret tt
       else freed <- TruncIndir g ;;
            c <- getc ;;
            if fb && (freed : bool) then lift (node_set (c_db c) k 0) else ret tt) : MC unit)).
    assert (RUN : trunc_dindir_loop g (S n) k fb l (s, c) =
      (body ;;; c0 <- getc ;; trunc_dindir_loop g n (k + 1) fb (l + (PE g - match c_ie c0 with Some x => x | None => 0 end))) (s, c1)).
    { cbn [trunc_dindir_loop]. unfold bind at 1. unfold attempt. rewrite R1. cbv beta iota.
      destruct (pm (c_ino c) (pT g l) =? 0); reflexivity. }
    (* one iteration *)
    assert (STEP : (nzb pm (c_ino c) (P2 e k) x /\ FreeBlockCount g s < bcost s c1 BD_INDIR /\ body (s, c1) = (Err ENOSPC, (s, c1))) \/
      exists pm' D' s' c', body (s, c1) = (Ok tt, (s', c')) /\ KS pm' D' s' c' /\
        TS (fun m => l <= m < efirst g e + (k + 1) * PE g) pm s c1 pm' s' c' /\ CZ pm' c' l /\
        (fb = true -> (forall p, ~ D' p) /\ pm' (c_ino c) (P1 e) <> 0 /\ com s (pm' (c_ino c) (P1 e)) = false) /\
        (fb = false -> pm' (c_ino c) (P1 e) = pm (c_ino c) (P1 e) /\ (forall p, D' p -> exists k', k' < k + 1 /\ p = P2 e k') /\ c_pi c' = false) /\
        (pm' (c_ino c) (P2 e k) <> 0 -> nzb pm (c_ino c) (P2 e k) x) /\
        (forall j q, 0 < phgt g q -> q <> P1 e -> q <> P2 e k -> pm' j q = pm j q)).
    { destruct (N.eq_dec (pm (c_ino c) (P2 e k)) 0) as [Z|Z].
      - right. exists pm, D, s, c1.
        assert (ZC : forall y, y < PE g -> pm (c_ino c) (P3 e k y) = 0).
        { intros y Hy. apply (r_zero (k_rep K) (c_ino c) (P2 e k) y); auto. cbn. lia. }
        split. { unfold body. unfold bind at 1, getc at 1. cbn [snd]. rewrite Eib, Z. reflexivity. }
        split; [exact K1|]. split.
        { apply (TS_refl g OK). intros m Hm Hr. rewrite EI.
          assert (E : m = lfirst g (P2 e k) + (m - (efirst g e + k * PE g))).
          { cbn [lfirst]. rewrite He. change (2 =? 2) with true. cbn iota. lia. }
          rewrite E, <- (slot_child g OK); [apply ZC; lia| |cbn; lia|lia]. repeat split; cbn; lia. }
        split; [now apply CS_CZ|]. split; [intros F; destruct (HF1 F) as (? & ? & ?); auto|]. split.
        { intros F. split; auto. split; [intros p Hp; destruct (ND p Hp) as (k' & ? & ?); exists k'; split; auto; lia|].
          destruct (c_pi c1) eqn:E; auto. destruct (s_pi _ _ _ _ S1 E). congruence. }
        split; [congruence|auto].
      - assert (BR : body (s, c1) = (freed <- TruncIndir g ;; c <- getc ;; if fb && (freed : bool) then lift (node_set (c_db c) k 0) else ret tt) (s, c1)).
        { unfold body. unfold bind at 1, getc at 1. cbn [snd]. rewrite Eib. destruct (N.eqb_spec (pm (c_ino c) (P2 e k)) 0); [congruence|reflexivity]. }
        destruct (TruncIndir_spec pm D s c1 l x K1 S1 PB1 Hl' Ci) as [(F1 & F2 & F3)|(freed & pm2 & D2 & s2 & c2 & R2 & K2 & T2 & Z2 & G1 & G2 & G3 & G4 & G5 & G6)].
        { intros y Hy X. rewrite PI in X. destruct (ND _ X) as (? & ? & ?). discriminate. }
        { rewrite EI, PI. intros NB. destruct (HF1 (HNZ NB)) as (X1 & X2 & _). split; auto. destruct SM1 as (_ & _ & _ & _ & _ & -> & _). auto. }
        { left. rewrite EI, PI in F1. split; [auto|]. split; auto. rewrite BR. unfold bind at 1. now rewrite F3. }
        right. rewrite EI, PI, PD, Cd in *.
        assert (E2 : c_ino c2 = c_ino c). { rewrite <- EI. apply T2. }
        assert (T2' : TS (fun m => l <= m < efirst g e + (k + 1) * PE g) pm s c1 pm2 s2 c2).
        { destruct T2 as (U1 & U2 & U3). split; [|split]; auto. eapply (TR_eq g OK); [|exact U3]. intros m Hm. cbv beta.
          cbn [lfirst]. rewrite He. change (2 =? 2) with true. cbn iota. lia. }
        destruct (fb && freed) eqn:FF.
        + apply andb_true_iff in FF. destruct FF as [-> ->].
          destruct (HF1 eq_refl) as (X1 & X2 & X3). destruct (G1 eq_refl) as (Y1 & Y2 & Y3).
          destruct (G6 ltac:(discriminate) HQ X3) as (W1 & W2).
          pose proof K2 as (K2c & M2 & B2').
          destruct (node_set_spec g OK C0 D0 R0 (c_ino c2) (c_i c2) LM pm2 D2 s2 (P1 e) k 0) as (v & RN & CN); auto.
          { now rewrite E2. }
          { cbn. lia. }
          { rewrite E2. rewrite (KS_com g OK _ _ _ _ _ _ _ _ _ _ _ _ KSx K2). auto. }
          { lia. }
          { cbn [child]. now rewrite E2, Y1. }
          destruct (TS_store pm2 D2 s2 c2 (P1 e) k 0 v K2) as (TT & MM); auto.
          { now rewrite E2. }
          { cbn. lia. }
          exists pm2, Dnone, (dk_write (pm2 (c_ino c2) (P1 e)) v s2), c2.
          split. { rewrite BR. unfold bind at 1. rewrite R2. cbv beta iota. unfold bind at 1, getc at 1. cbn [snd andb].
            unfold lift. cbn [fst snd]. rewrite (z_db _ _ _ Z2), PD.
            - now rewrite RN.
            - pose proof (z_at _ _ _ Z2) as (_ & _ & V & _). rewrite V, (z_l _ _ _ Z2). congruence. }
          split. { split; [|split]; auto. eapply (Core_D OK); [|exact CN]. intros p [Hp Hn]. apply Hn. destruct (Y3 p Hp) as [X|X]; auto. destruct (X1 p X). }
          split. { eapply (TS_trans g OK); [exact T2'|exact TT|]. intros m Hm. cbv beta. tauto. }
          split; [exact Z2|]. split; [intros _; split; auto; intros p []|]. split; [discriminate|]. split; [rewrite Y1; congruence|].
          intros j q Q1 Q2 Q3. apply G5; auto.
        + exists pm2, D2, s2, c2.
          split. { rewrite BR. unfold bind at 1. rewrite R2. cbv beta iota. unfold bind at 1, getc at 1. cbn [snd]. now rewrite FF. }
          split; [exact K2|]. split; [exact T2'|]. split; [exact Z2|]. split.
          { intros ->. cbn [andb] in FF. subst freed. destruct (HF1 eq_refl) as (X1 & X2 & X3).
            destruct (G6 ltac:(discriminate) HQ X3) as (W1 & W2). split; auto. intros p Hp. destruct (X1 p). now apply G2. }
          split.
          { intros ->. destruct G4 as (Y1 & Y2 & Y3). { intros NB. specialize (HNZ NB). discriminate. }
            split; auto. split; auto. intros p Hp. destruct freed.
            - destruct (G1 eq_refl) as (_ & _ & Y4). destruct (Y4 p Hp) as [X| ->].
              + destruct (ND p X) as (k' & ? & ?). exists k'. split; auto. lia.
              + exists k. split; auto. lia.
            - destruct (ND p (G2 eq_refl p Hp)) as (k' & ? & ?). exists k'. split; auto. lia. }
          split.
          { intros NZ2. assert (DEC : {nzb pm (c_ino c) (P2 e k) x} + {~ nzb pm (c_ino c) (P2 e k) x}).
            { destruct (any_nz (fun y => pm (c_ino c) (child (P2 e k) y)) (N.to_nat x)) eqn:AN; [left|right].
              - apply (any_nz_spec g OK) in AN. rewrite N2Nat.id in AN. exact AN.
              - intros (y & Hy & NY). apply NY. apply (any_nz_false g OK _ _ AN). now rewrite N2Nat.id. }
            destruct DEC as [|NB]; auto. destruct (G4 NB). congruence. }
          intros j q Q1 Q2 Q3. apply G5; auto. }
    clearbody body. destruct STEP as [(F1 & F2 & F3)|(pm2 & D2 & s2 & c2 & R2 & K2 & T2 & Z2 & G1 & G2 & G3 & G4)].
    { left. split; auto. exists c1. split; auto. split; auto. split; auto. split; auto. rewrite RUN. unfold bind at 1. now rewrite F3. }
    right. assert (E2 : c_ino c2 = c_ino c). { rewrite <- EI. apply T2. }
    pose proof (z_at _ _ _ Z2) as (_ & _ & _ & Y4). rewrite (z_l _ _ _ Z2), Ci in Y4.
    assert (COM : forall b, com s2 b = com s b) by (intros; eapply (KS_com g OK); eauto).
    destruct (IHn (k + 1) 0 pm2 D2 s2 c2 (l + (PE g - x))) as [(F1 & _)|(pm3 & D3 & s3 & c3 & R3 & K3 & T3 & Z3 & H1 & H2 & H3 & H4)]; auto; try lia.
    { intros Hn. destruct Hl as [_ Hl]; [lia|]. assert (efirst g e + (k + 1) * PE g < IDB).
      { assert (X : 1 <= N.of_nat n) by lia. revert Hl X. replace (N.of_nat (S n)) with (N.of_nat n + 1) by lia.
        generalize (N.of_nat n). intros y Hy Hy1. assert (Y : (k + 1) * PE g + PE g <= (k + (y + 1)) * PE g) by nia. lia. }
      split; [lia|]. revert Hl. replace (k + N.of_nat (S n)) with (k + 1 + N.of_nat n) by lia. auto. }
    { eapply CZ_ZL; eauto. congruence. }
    { rewrite E2. destruct fb; [apply G1; auto|]. destruct (G2 eq_refl) as (-> & _). auto. }
    { intros F. destruct (G1 F) as (X1 & X2 & X3). rewrite E2, COM. split; auto. split; auto.
      assert (X : c_dirty c2 = c_dirty c1) by apply T2. rewrite X. destruct SM1 as (_ & _ & _ & _ & _ & -> & _). apply HF1; auto. }
    { intros F. apply G2; auto. }
    { intros (y & Hy & _). lia. }
    { destruct F1 as (y & Hy & _). lia. }
    rewrite E2 in *. replace (k + 1 + N.of_nat n) with (k + N.of_nat (S n)) in * by lia.
    exists pm3, D3, s3, c3. split.
    { rewrite RUN. unfold bind at 1. rewrite R2. cbv beta iota. unfold bind at 1, getc at 1. cbn [snd]. rewrite Y4. exact R3. }
    split; [exact K3|]. split.
    { eapply (TS_csame g OK); [exact SM1|]. eapply (TS_trans g OK); [exact T2|exact T3|]. intros m Hm. cbv beta.
      replace (N.of_nat (S n)) with (N.of_nat n + 1) by lia. assert (X : (k + 1) * PE g <= (k + (N.of_nat n + 1)) * PE g) by nia.
      revert X. generalize ((k + (N.of_nat n + 1)) * PE g). intros; lia. }
    split; [exact Z3|]. split.
    { intros F. destruct (H1 F) as (X1 & X2 & X3). rewrite COM in X3. auto. }
    split.
    { intros F. destruct (H2 F) as (X1 & X2 & X3), (G2 F) as (W1 & W2 & W3). split; [congruence|]. split; auto.
      intros _. destruct n as [|n']; [|apply X3; lia]. cbn [trunc_dindir_loop] in R3. injection R3 as <- <-. exact W3. }
    split.
    { intros k' Hk' NZ. destruct (N.eq_dec k' k) as [->|Hne].
      - split; auto. apply G3. rewrite <- H4; auto; [cbn; lia|discriminate|]. intros k'' Hk'' X. injection X as X. lia.
      - exfalso. destruct (H3 k') as (_ & (y & Hy & _)); auto; lia. }
    intros j q Q1 Q2 Q3. rewrite H4, G4; auto; [apply Q3; lia|]. intros k' Hk'. apply Q3. lia.
Qed.
End Trunc.
