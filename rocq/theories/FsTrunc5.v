(** Shrink, RedInodeDataTruncate and their effect on the contents of files. *)
From Verif Require Import Base Count FsState FsImap FsInode FsData FsTree FsImapProof FsWp FsInv FsStep FsSeek FsBranch FsRead FsWrite FsWrite2 FsTrunc FsTrunc2 FsTrunc3 FsTrunc4.
Ltac Zify.zify_post_hook ::= idtac.

Section Trunc.
Variable g : cfg.
Hypothesis OK : cfg_ok g.
Set Default Proof Using "OK".
Notation IDB := (INODE_DATA_BLOCKS g).

Lemma start_ind : 0 < INODE_INDIR_BLOCKS g -> efirst g (co_e g (NDIR g)) = NDIR g.
Proof.
  intros H. pose proof (ok_IE g OK). pose proof (data_blocks_dir g).
  assert (0 < NIND g). { unfold INODE_INDIR_BLOCKS in H. destruct (N.eq_dec (NIND g) 0) as [E|]; [rewrite E in H|]; lia. }
  assert (E : efirst g (NDIR g) = NDIR g).
  { destruct (hcases g (NDIR g)) as [? ? ?|? ? Y|? ? Y]; [lia| |lia]. rewrite Y, N.sub_diag. lia. }
  rewrite <- E at 1. rewrite (entry_start g OK); [exact E|lia|lia].
Qed.
Lemma start_din : NDIR g + INODE_INDIR_BLOCKS g < IDB -> efirst g (co_e g (NDIR g + INODE_INDIR_BLOCKS g)) = NDIR g + INODE_INDIR_BLOCKS g.
Proof.
  intros H. pose proof (ok_IE g OK). pose proof (data_blocks_cap g OK) as CAP.
  assert (0 < DINDIR_POINTERS g). { unfold INODE_INDIR_BLOCKS in H. destruct (N.eq_dec (DINDIR_POINTERS g) 0) as [E|]; [rewrite E in CAP|]; lia. }
  unfold DINDIR_POINTERS in *.
  assert (E : efirst g (NDIR g + NIND g) = NDIR g + INODE_INDIR_BLOCKS g).
  { unfold INODE_INDIR_BLOCKS. destruct (hcases g (NDIR g + NIND g)) as [? ? ?|? ? Y|? ? Y]; [lia|lia|]. rewrite Y.
    replace (NDIR g + NIND g - NDIR g - NIND g) with 0 by lia. lia. }
  rewrite <- E at 1. rewrite (entry_start g OK); [exact E|lia|lia].
Qed.
Lemma ceil_lt size m : m < (size + BS g - 1) / BS g <-> m * BS g < size.
Proof.
  pose proof (BSp g OK) as BP. pose proof (div_eq (size + BS g - 1) (BS g) BP) as E. pose proof (mod_ub (size + BS g - 1) (BS g) BP) as U.
  revert E U. generalize ((size + BS g - 1) / BS g) ((size + BS g - 1) mod BS g). intros q r E U. split; intros H.
  - assert ((m + 1) * BS g <= q * BS g) by (apply N.mul_le_mono_r; lia). lia.
  - destruct (N.lt_ge_cases m q); auto. assert (q * BS g <= m * BS g) by (apply N.mul_le_mono_r; auto). lia.
Qed.

Variable C0 : mroot.
Variable D0 : N -> blk.
Variable R0 : bool.
Notation Core := (Core g C0 D0 R0).
Notation KS := (KS g C0 D0 R0).
Notation TS := (TS g).
Notation QS := (QS g C0 D0 R0).
Notation GS := (GS g).
Notation NS := (NS g C0 D0 R0).
Notation WK := (WK g C0 D0 R0).
Notation WS := (WS g C0 D0 R0).
Notation LM := (INODE_SIZE_MAX g).

(** State of a mounted inode between data operations; [KT] keeps the pointers bounded by the size. *)
Definition KT (pm : pmap) (s : st) (c : cin) : Prop :=
  Core (c_ino c) (c_i c) (i_size (c_i c)) pm Dnone s /\ CM g s c /\ CW0 g pm c /\ i_blocks (c_i c) = nblk g pm (c_ino c).

Lemma WK_KS pm s c : WK (i_size (c_i c)) pm s c -> i_blocks (c_i c) = nblk g pm (c_ino c) -> KS pm Dnone s c.
Proof.
  intros (K & M & W) B. split; [|split]; auto. eapply (Core_L OK); [| |exact K]; [apply (k_lim0 K)|lia].
Qed.
Lemma PutData_csame c : csame c (PutData c). Proof using. repeat split. Qed.
Lemma WK_QS pm s c l : WK (i_size (c_i c)) pm s c -> i_blocks (c_i c) = nblk g pm (c_ino c) -> QS pm s (PutData c) l.
Proof.
  intros W B. pose proof (WK_KS _ _ _ W B) as KSx. destruct W as (K & M & (W0 & WE)).
  assert (W' : CW0 g pm (PutData c)). { destruct W0 as [W1 W2 W3 W4]. constructor; auto. discriminate. }
  split; [eapply (KS_csame g OK); [apply PutData_csame|exact KSx]|]. split; [reflexivity|]. split; [exact W'|].
  intros m _ _. split; [exact W'|]. intros _ _. exact WE.
Qed.
Lemma KS_limit pm s c sz : KS pm Dnone s c -> i_size (c_i c) <= sz -> sz <= LM ->
  (forall p, pm (c_ino c) p <> 0 -> lfirst g p * BS g < sz) -> Core (c_ino c) (c_i c) sz pm Dnone s.
Proof.
  intros (K & M & B) H1 H2 H. destruct K. constructor; auto. constructor; auto.
Qed.

Lemma Shrink_spec pm s c size :
  WK (i_size (c_i c)) pm s c -> i_blocks (c_i c) = nblk g pm (c_ino c) -> size < i_size (c_i c) ->
  (0 < size -> c_dirty c = true) ->
  (0 < size /\ FreeBlockCount g s < MAXCOST g /\ exists pm' s' c', Shrink g size (s, c) = (Err ENOSPC, (s', c')) /\
     KT pm' s' c' /\ CWe g pm' c' /\ TS (fun _ => False) pm s c pm' s' c' /\ FN g pm s (c_ino c) ((size + BS g - 1) / BS g) pm' s') \/
  exists pm' s' c', Shrink g size (s, c) = (Ok tt, (s', c')) /\ KS pm' Dnone s' c' /\ CW0 g pm' c' /\
    TS (fun m => size <= m * BS g) pm s c pm' s' c' /\ (forall p, pm' (c_ino c) p <> 0 -> lfirst g p * BS g < size).
Proof.
  intros W B Hs HD. pose proof W as (K & M & _). set (l := (size + BS g - 1) / BS g). set (i := c_ino c) in *.
  pose proof (ok_PE g OK) as HP. pose proof (data_blocks_dir g) as DBD. pose proof (BSp g OK) as BP.
  assert (CL : forall m, m < l <-> m * BS g < size) by (intros; apply ceil_lt).
  assert (L0 : size = 0 -> l = 0). { intros ->. destruct (N.eq_dec l 0) as [|X]; auto. assert (0 < l) as Y by lia. apply CL in Y. lia. }
  pose proof (WK_QS pm s c l W B) as Q0. set (c0 := PutData c) in *. pose proof (PutData_csame c) as SM. fold c0 in SM.
  assert (ED : c_dirty c0 = c_dirty c) by reflexivity.
  assert (RUN : Shrink g size (s, c) = (shrink_direct g l ;;; l2 <- shrink_indir g (S (N.to_nat (NIND g))) (N.max l (NDIR g)) ;;
       shrink_dindir g (S (N.to_nat (DINDIR_POINTERS g))) l2) (s, c0)).
  { unfold Shrink. unfold bind at 1, getc at 1. cbn [snd]. rewrite (CM_mounted g OK _ _ M). cbn [negb orb].
    assert (E : (0 <? size) && negb (c_dirty c) = false). { destruct (N.ltb_spec 0 size); auto. now rewrite HD. }
    rewrite E. fold l. unfold bind at 1, modc at 1. cbn [fst snd]. reflexivity. }
  clearbody l.
  assert (NSK : forall pm' s' c', NS l pm s c0 pm' s' c' -> KT pm' s' c' /\ CWe g pm' c' /\ TS (fun _ => False) pm s c pm' s' c' /\ FN g pm s i l pm' s').
  { intros pm' s' c' (A1 & A2 & A3 & A4 & A5). apply (TS_csame g OK _ _ _ _ _ _ _ _ SM) in A2. split; [|split; [apply A3|split; [exact A2|exact A5]]].
    pose proof A2 as (CI & MS & T). assert (EI : c_ino c' = i) by apply CI. assert (ES : i_size (c_i c') = i_size (c_i c)) by apply MS.
    split; [|split; [apply A1|split; [apply A3|apply A1]]]. apply KS_limit; auto; [lia|rewrite ES; apply (k_lim0 K)|].
    rewrite EI, ES. intros p Hp. apply (f_lim (k_lim0 K)). fold i.
    destruct (N.eq_dec (phgt g p) 0) as [Z|Z].
    - destruct (Core_blk OK (proj1 A1) (i := i) (p := p)) as (_ & _ & V & _); [exact Hp|].
      assert (LP : lfirst g p < IDB) by (eapply (KS_lim g OK); [exact A1|]; rewrite EI; exact Hp).
      pose proof (data_slot g OK p V Z) as DS. rewrite <- DS in Hp |- *. rewrite (tr_keep _ _ _ _ _ _ _ T) in Hp; auto.
    - apply (tr_node _ _ _ _ _ _ _ T p); [lia|exact Hp]. }
  assert (FCE : forall pm' s' c', NS l pm s c0 pm' s' c' -> FreeBlockCount g s < MAXCOST g) by (intros ? ? ? (_ & _ & _ & X & _); exact X).
  (* the rest, once the direct blocks are gone *)
  assert (FIN : forall pm' s' c', QS pm' s' c' (N.max l IDB) -> GS l (N.max l IDB) pm s c0 pm' s' c' ->
     KS pm' Dnone s' c' /\ CW0 g pm' c' /\ TS (fun m => size <= m * BS g) pm s c pm' s' c' /\ (forall p, pm' i p <> 0 -> lfirst g p * BS g < size)).
  { intros pm' s' c' (A1 & A2 & A3 & A4) (B1 & B2). split; [exact A1|]. split; [exact A3|].
    assert (T : TS (fun m => size <= m * BS g) pm s c pm' s' c').
    { apply (TS_csame g OK _ _ _ _ _ _ _ _ SM) in B1. eapply (TS_trans g OK); [exact B1|apply (TS_refl g OK) with (P := fun _ => False); tauto|].
      intros m Hm. cbv beta. specialize (CL m). lia. }
    split; [exact T|]. intros p Hp. assert (EI : c_ino c' = i) by apply T.
    assert (LP : lfirst g p < IDB) by (eapply (KS_lim g OK); [exact A1|]; rewrite EI; exact Hp).
    apply CL. destruct (N.eq_dec (phgt g p) 0) as [Z|Z].
    - destruct (Core_blk OK (proj1 A1) (i := i) (p := p)) as (_ & _ & V & _); [exact Hp|].
      pose proof (data_slot g OK p V Z) as DS. destruct (N.lt_ge_cases (lfirst g p) l) as [|X]; auto. exfalso. apply Hp. rewrite <- DS.
      destruct T as (_ & _ & T). apply (tr_zero _ _ _ _ _ _ _ T); auto. specialize (CL (lfirst g p)). lia.
    - change (c_ino c0) with i in B2. destruct (B2 p ltac:(lia) Hp); [auto|lia]. }
  assert (FU1 : forall m, NDIR g <= m -> m < NDIR g + INODE_INDIR_BLOCKS g ->
     NDIR g + INODE_INDIR_BLOCKS g <= efirst g (co_e g m) + N.of_nat (S (N.to_nat (NIND g))) * PE g).
  { intros m H1 H2. destruct (co_cases g OK m ltac:(lia)) as [? ? ? ? ? ? ?|k Hk R HE Hh Ed Ei EL EF PI PT|? ? ? ? ? ? ? ? ? ? ? ? ?]; try lia.
    rewrite EF, Nat2N.inj_succ, N2Nat.id, N.mul_succ_l. unfold INODE_INDIR_BLOCKS. generalize ((co_e g m - NDIR g) * PE g) (NIND g * PE g). intros; lia. }
  assert (FU2 : forall m, NDIR g + INODE_INDIR_BLOCKS g <= m -> m < IDB ->
     IDB <= efirst g (co_e g m) + N.of_nat (S (N.to_nat (DINDIR_POINTERS g))) * (PE g * PE g)).
  { intros m H1 H2. destruct (co_cases g OK m H2) as [? ? ? ? ? ? ?|? ? ? ? ? ? ? ? ? ? ?|d k Hd Hk LB HE Hh Ed Ei EL EF PI PT]; try lia.
    rewrite EF, Nat2N.inj_succ, N2Nat.id, N.mul_succ_l. pose proof (data_blocks_cap g OK) as CAP. revert CAP.
    generalize ((co_e g m - NDIR g - NIND g) * (PE g * PE g)) (NIND g * PE g) (DINDIR_POINTERS g * (PE g * PE g)). intros; lia. }
  (* double indirect part starting at an entry boundary *)
  assert (DIN : forall l2 pm2 s2 c2, QS pm2 s2 c2 l2 -> GS l l2 pm s c0 pm2 s2 c2 -> l <= l2 -> NDIR g + INODE_INDIR_BLOCKS g <= l2 ->
     (l2 < IDB -> efirst g (co_e g l2) = l2) ->
     exists pm' s' c', shrink_dindir g (S (N.to_nat (DINDIR_POINTERS g))) l2 (s2, c2) = (Ok tt, (s', c')) /\
       QS pm' s' c' (N.max l2 IDB) /\ GS l (N.max l2 IDB) pm s c0 pm' s' c').
  { intros l2 pm2 s2 c2 Q2 G2 L2 L3 L4.
    destruct (dindir_loop g OK C0 D0 R0 (S (N.to_nat (DINDIR_POINTERS g))) pm2 s2 c2 l2 Q2 L3) as [(X1 & X2 & _)|(pm3 & s3 & c3 & R3 & Q3 & G3)].
    - intros X1 X2. rewrite L4 in X1; congruence.
    - auto.
    - rewrite L4 in X1; congruence.
    - exists pm3, s3, c3. split; [exact R3|]. split; [exact Q3|]. eapply (GS_trans g OK); [| |exact G2|exact G3]; lia. }
  destruct (N.lt_ge_cases (NDIR g + INODE_INDIR_BLOCKS g) (N.max l (NDIR g + INODE_INDIR_BLOCKS g))) as [C1|C1].
  { (* the first block to free lies in the double indirect part *)
    assert (HL : NDIR g + INODE_INDIR_BLOCKS g < l) by lia.
    assert (SZ : 0 < size) by (destruct (N.eq_dec size 0) as [E|]; [specialize (L0 E); lia|apply N.neq_0_lt_0; assumption]).
    assert (RUN2 : Shrink g size (s, c) = shrink_dindir g (S (N.to_nat (DINDIR_POINTERS g))) l (s, c0)).
    { rewrite RUN. unfold shrink_direct. replace (N.to_nat (NDIR g - l)) with O by lia. cbn [loop].
      replace (N.max l (NDIR g)) with l by lia. cbn [shrink_indir]. destruct (N.ltb_spec l (NDIR g + INODE_INDIR_BLOCKS g)); [lia|]. reflexivity. }
    destruct (dindir_loop g OK C0 D0 R0 (S (N.to_nat (DINDIR_POINTERS g))) pm s c0 l Q0) as [(X1 & X2 & pm' & s' & c' & R3 & N3)|(pm3 & s3 & c3 & R3 & Q3 & G3)].
    - lia.
    - intros _ _. rewrite ED. auto.
    - intros X. apply FU2; [lia|exact X].
    - left. split; [exact SZ|]. split; [eauto|]. exists pm', s', c'. split; [now rewrite RUN2|]. auto.
    - right. exists pm3, s3, c3. split; [now rewrite RUN2|]. auto. }
  assert (HL : l <= NDIR g + INODE_INDIR_BLOCKS g) by lia. clear C1.
  destruct (N.lt_ge_cases (NDIR g) l) as [C2|C2].
  { (* in the indirect part *)
    assert (SZ : 0 < size) by (destruct (N.eq_dec size 0) as [E|]; [specialize (L0 E); lia|apply N.neq_0_lt_0; assumption]).
    assert (RUN2 : Shrink g size (s, c) = (l2 <- shrink_indir g (S (N.to_nat (NIND g))) l ;;
       shrink_dindir g (S (N.to_nat (DINDIR_POINTERS g))) l2) (s, c0)).
    { rewrite RUN. unfold shrink_direct. replace (N.to_nat (NDIR g - l)) with O by lia. cbn [loop].
      replace (N.max l (NDIR g)) with l by lia. reflexivity. }
    destruct (indir_loop g OK C0 D0 R0 (S (N.to_nat (NIND g))) pm s c0 l Q0) as [(X1 & X2 & pm' & s' & c' & R3 & N3)|(l2 & pm3 & s3 & c3 & R3 & L1 & L2 & L3 & L4 & Q3 & G3)].
    - lia.
    - intros _ _. rewrite ED. auto.
    - intros X. apply FU1; [lia|exact X].
    - left. split; [exact SZ|]. split; [eauto|]. exists pm', s', c'. split; [|auto]. rewrite RUN2. unfold bind at 1. now rewrite R3.
    - right. assert (E2 : l2 = NDIR g + INODE_INDIR_BLOCKS g).
      { destruct (N.lt_ge_cases l (NDIR g + INODE_INDIR_BLOCKS g)); [auto|]. rewrite L4; lia. }
      destruct (DIN l2 pm3 s3 c3 Q3 G3 L1 L2) as (pm4 & s4 & c4 & R4 & Q4 & G4). { intros X. rewrite E2 in *. apply start_din. exact X. }
      replace (N.max l2 IDB) with (N.max l IDB) in * by lia.
      exists pm4, s4, c4. split; [rewrite RUN2; rewrite (bind_ok _ _ _ _ _ R3); exact R4|]. auto. }
  (* from a direct block on *)
  right.
  destruct (direct_loop g OK C0 D0 R0 (N.to_nat (NDIR g - l)) pm s c0 l Q0) as (pm1 & s1 & io1 & R1 & Q1 & G1); [lia|].
  replace (l + N.of_nat (N.to_nat (NDIR g - l))) with (NDIR g) in * by lia. set (c1 := cset_i io1 c0) in *.
  assert (E1 : c_dirty c1 = c_dirty c) by reflexivity.
  destruct (indir_loop g OK C0 D0 R0 (S (N.to_nat (NIND g))) pm1 s1 c1 (NDIR g) Q1) as [(X1 & X2 & _)|(l2 & pm3 & s3 & c3 & R3 & L1 & L2 & L3 & L4 & Q3 & G3)].
  - lia.
  - intros X1 X2. rewrite start_ind in X1; [congruence|lia].
  - intros X. apply FU1; [lia|exact X].
  - rewrite start_ind in X1; [congruence|lia].
  - assert (G3' : GS l l2 pm s c0 pm3 s3 c3) by (eapply (GS_trans g OK); [| |exact G1|exact G3]; lia).
    assert (E2 : l2 = NDIR g + INODE_INDIR_BLOCKS g).
    { destruct (N.lt_ge_cases (NDIR g) (NDIR g + INODE_INDIR_BLOCKS g)); [auto|]. rewrite L4; lia. }
    destruct (DIN l2 pm3 s3 c3 Q3 G3' ltac:(lia) L2) as (pm4 & s4 & c4 & R4 & Q4 & G4). { intros X. rewrite E2 in *. apply start_din. exact X. }
    replace (N.max l2 IDB) with (N.max l IDB) in * by lia.
    exists pm4, s4, c4. split; [|auto]. rewrite RUN. unfold shrink_direct. rewrite (bind_ok _ _ _ _ _ R1).
    replace (N.max l (NDIR g)) with (NDIR g) by lia. rewrite (bind_ok _ _ _ _ _ R3). exact R4.
Qed.

(** Writing back a changed inode structure that keeps the block pointers. *)
Lemma iset_KT pm s c (f : inode -> inode) :
  KS pm Dnone s c -> CW0 g pm c -> (forall io, i_ent (f io) = i_ent io) -> i_blocks (f (c_i c)) = i_blocks (c_i c) ->
  i_size (f (c_i c)) <= LM -> (forall p, pm (c_ino c) p <> 0 -> lfirst g p * BS g < i_size (f (c_i c))) ->
  let s' := iset_st s c (f (c_i c)) in let c' := cset_i (f (c_i c)) c in
  KT pm s' c' /\ cid c c' /\ forall P, EF g (c_ino c) P pm s pm s'.
Proof.
  intros (K & M & B) W He Hb Hs HL s' c'.
  split; [|split].
  - split; [|split; [|split]].
    + apply (iset_Core g OK C0 D0 R0 s c (f (c_i c)) LM (i_size (f (c_i c))) pm Dnone Dnone M K).
      * intros e Hx _. rewrite He. eapply ino_sync; [apply (k_rep K)|auto|intros []].
      * intros p [].
      * constructor; auto. lia.
    + now apply (iset_CM g OK).
    + now apply (CW0_ci g OK).
    + cbn. now rewrite Hb.
  - repeat split.
  - intros P. constructor; auto.
    + intros j m x Hm _. unfold blkc. destruct (N.eqb_spec (pm j (pT g m)) 0) as [|Hz]; auto.
      unfold s'. rewrite (iset_dk g OK); auto. destruct (Core_blk OK K Hz). pose proof (CM_blk g OK _ _ M). lia.
    + intros b Hbb. unfold s'. rewrite (iset_cur g OK). split; auto.
      destruct (N.eq_dec b (c_blk c)) as [->|Hn]; [left; apply M|right]. now apply (iset_dk g OK).
Qed.

Lemma TS_EF P pm s c pm' s' c' : TS P pm s c pm' s' c' -> EF g (c_ino c) P pm s pm' s'.
Proof using OK. clear C0 D0 R0. intros (_ & _ & [A1 A2 A3 A4 A5 A6 A7]). constructor; auto. Qed.

(** Bytes of blocks that were not touched. *)
Lemma EF_fbyte (i : N) (P : N -> Prop) pm s pm' s' j off : EF g i P pm s pm' s' -> off < LM -> (j <> i \/ ~ P (off / BS g)) ->
  fbyte g pm' s' j off = fbyte g pm s j off.
Proof using OK. clear C0 D0 R0. intros E H1 H2. unfold fbyte. apply (ef_blk _ _ _ _ _ _ _ E); auto. now apply (off_blk g OK). Qed.
Lemma beyond_zero L pm s j io off : Core j io L pm Dnone s -> L <= off / BS g * BS g -> off < LM -> fbyte g pm s j off = 0.
Proof.
  intros K H1 H2. unfold fbyte, blkc. destruct (N.eqb_spec (pm j (pT g (off / BS g))) 0) as [|Z]; auto. exfalso.
  pose proof (f_lim (k_lim0 K) _ Z) as X. rewrite (lfirst_pT g OK) in X; [lia|]. now apply (off_blk g OK).
Qed.

(** What a truncation does to the contents of the file. *)
Definition tok (size : N) (pm : pmap) (s : st) (c : cin) (pm' : pmap) (s' : st) (c' : cin) : Prop :=
  KT pm' s' c' /\ i_size (c_i c') = size /\ meta_but_size (c_i c) (c_i c') /\ cid c c' /\ EF g (c_ino c) anyb pm s pm' s' /\
  forall off, off < LM -> vb g size pm' s' (c_ino c) off = if off <? size then vb g (i_size (c_i c)) pm s (c_ino c) off else 0.

Lemma RedInodeDataTruncate_spec pm s c size :
  WK (i_size (c_i c)) pm s c -> i_blocks (c_i c) = nblk g pm (c_ino c) -> (0 < size -> c_dirty c = true) -> size <= LM ->
  (0 < size /\ FreeBlockCount g s < MAXCOST g /\ exists pm' s' c', RedInodeDataTruncate g size (s, c) = (Err ENOSPC, (s', c')) /\
     KT pm' s' c' /\ CWe g pm' c' /\ (ST g anyb pm s c pm' s' c' /\ (size < i_size (c_i c) -> FN g pm s (c_ino c) ((size + BS g - 1) / BS g) pm' s')) /\
     forall off, off < LM -> fbyte g pm' s' (c_ino c) off = fbyte g pm s (c_ino c) off) \/
  exists pm' s' c', RedInodeDataTruncate g size (s, c) = (Ok tt, (s', c')) /\ tok size pm s c pm' s' c'.
Proof.
  intros W B HD HLM. pose proof W as (K & M & (W0 & WE)). set (i := c_ino c) in *. set (osz := i_size (c_i c)) in *.
  pose proof (BSp g OK) as BP.
  assert (RUN : RedInodeDataTruncate g size (s, c) = ((if osz <? size then ExpandPrepare g else if size <? osz then Shrink g size else ret tt) ;;; iset (iset_size size)) (s, c)).
  { unfold RedInodeDataTruncate. unfold bind at 1, getc at 1. cbn [snd]. rewrite (CM_mounted g OK _ _ M). cbn [negb].
    destruct (N.ltb_spec LM size); [lia|]. fold osz. reflexivity. }
  destruct (N.lt_trichotomy osz size) as [C|[C|C]].
  - (* expand *)
    assert (Hd : c_dirty c = true) by (apply HD; lia).
    assert (E : osz <? size = true) by (apply N.ltb_lt; auto). rewrite E in RUN.
    destruct (ExpandPrepare_spec g OK C0 D0 R0 osz pm s c) as [(c' & R1 & SM & W1 & FC)|(pm1 & s1 & c1 & R1 & W1 & S1 & BY)].
    { split; [exact W|]. auto. }
    + left. split; [lia|]. split; [exact FC|]. exists pm, s, c'. split; [rewrite RUN; unfold bind at 1; now rewrite R1|].
      destruct W1 as ((K1 & M1 & W1) & Hd1 & B1). assert (EC : c_i c' = c_i c) by apply SM.
      split; [|split; [apply W1|split; [split; [now apply (ST_csame g OK)|fold osz; lia]|auto]]].
      split; [|split; [exact M1|split; [apply W1|exact B1]]]. rewrite EC at 2. exact K1.
    + right. pose proof W1 as ((K1 & M1 & W1') & Hd1 & B1). fold osz in BY, S1. fold i in BY.
      assert (EI : c_ino c1 = i) by apply S1. assert (ES : i_size (c_i c1) = osz) by apply S1.
      assert (K1S : KS pm1 Dnone s1 c1). { apply WK_KS; [rewrite ES; split; [exact K1|split; auto]|exact B1]. }
      destruct (iset_KT pm1 s1 c1 (iset_size size)) as (KT2 & CI2 & EF2); auto; [apply W1'| |].
      { cbn. intros p Hp. pose proof (f_lim (k_lim0 K1) _ Hp). lia. }
      set (s2 := iset_st s1 c1 (iset_size size (c_i c1))) in *. set (c2 := cset_i (iset_size size (c_i c1)) c1) in *.
      exists pm1, s2, c2. split; [rewrite RUN; rewrite (bind_ok _ _ _ _ _ R1); rewrite (iset_run g OK); reflexivity|].
      destruct S1 as (CI1 & MS1 & EF1). rewrite EI in EF2. fold i in EF1.
      split; [exact KT2|]. split; [reflexivity|]. split; [destruct MS1 as (? & ? & ? & ?); repeat split; auto|].
      split; [eapply (cid_trans g OK); eauto|]. split.
      { eapply (EF_trans g OK); [|apply EF2]. eapply (EF_weak g OK); [|exact EF1]. intros; exact I. }
      intros off Ho. fold i. unfold vb at 1. destruct (N.ltb_spec off size) as [L1|L1]; auto.
      rewrite (EF_fbyte i (fun _ => False) pm1 s1 pm1 s2 i off (EF2 _) Ho) by auto. unfold vb. fold osz.
      pose proof (div_eq off (BS g) BP) as DE. pose proof (mod_ub off (BS g) BP) as DU.
      pose proof (div_eq osz (BS g) BP) as DE'. pose proof (mod_ub osz (BS g) BP) as DU'.
      destruct (N.eq_dec (osz mod BS g) 0) as [MZ|MZ].
      * rewrite (EF_fbyte i _ pm s pm1 s1 i off EF1 Ho) by (right; tauto).
        destruct (N.ltb_spec off osz) as [L2|L2]; auto. eapply beyond_zero; [exact K| |exact Ho].
        revert DE DU DE' L2. rewrite MZ. generalize (off / BS g) (off mod BS g) (osz / BS g). intros q r q' DE DU DE' L2.
        rewrite DE' in L2 |- *. assert (q' <= q); [|rewrite (N.mul_comm q), N.add_0_r; apply N.mul_le_mono_l; auto].
        destruct (N.le_gt_cases q' q); auto. assert (BS g * (q + 1) <= BS g * q') by (apply N.mul_le_mono_l; lia). lia.
      * destruct (N.eq_dec (off / BS g) (osz / BS g)) as [EQ|NE].
        -- unfold fbyte at 1. rewrite EQ. rewrite (BY MZ) by auto. unfold fbyte. rewrite EQ.
           assert (X : (osz mod BS g <= off mod BS g) <-> osz <= off) by (rewrite EQ in DE; lia).
           destruct (N.leb_spec (osz mod BS g) (off mod BS g)), (N.ltb_spec off osz); auto; lia.
        -- rewrite (EF_fbyte i _ pm s pm1 s1 i off EF1 Ho) by (right; intros [_ X]; auto).
           destruct (N.ltb_spec off osz) as [L2|L2]; auto. eapply beyond_zero; [exact K| |exact Ho].
           revert DE DU DE' DU' L2 NE. fold osz. generalize (off / BS g) (off mod BS g) (osz / BS g) (osz mod BS g). intros q r q' r' DE DU DE' DU' L2 NE.
           assert (q' + 1 <= q). { destruct (N.le_gt_cases (q' + 1) q); auto. assert (BS g * (q + 1) <= BS g * q') by (apply N.mul_le_mono_l; lia). lia. }
           assert (BS g * (q' + 1) <= BS g * q) by (apply N.mul_le_mono_l; auto). lia.
  - (* same size *)
    right. assert (E1 : osz <? size = false) by (apply N.ltb_ge; lia). assert (E2 : size <? osz = false) by (apply N.ltb_ge; lia).
    rewrite E1, E2 in RUN.
    destruct (iset_KT pm s c (iset_size size)) as (KT2 & CI2 & EF2); auto; [now apply WK_KS| |].
    { cbn. rewrite <- C. apply (k_lim0 K). }
    exists pm, (iset_st s c (iset_size size (c_i c))), (cset_i (iset_size size (c_i c)) c). split; [rewrite RUN; unfold bind at 1, ret at 1; rewrite (iset_run g OK); reflexivity|].
    split; [exact KT2|]. split; [reflexivity|]. split; [repeat split|]. split; [exact CI2|]. split; [apply EF2|].
    intros off Ho. fold i. unfold vb. fold osz. rewrite C. destruct (N.ltb_spec off size); auto.
    apply (EF_fbyte i (fun _ => False) _ _ _ _ i off (EF2 _) Ho). auto.
  - (* shrink *)
    assert (E1 : osz <? size = false) by (apply N.ltb_ge; lia). assert (E2 : size <? osz = true) by (apply N.ltb_lt; lia).
    rewrite E1, E2 in RUN.
    destruct (Shrink_spec pm s c size W B C HD) as [(SZ & FC & pm1 & s1 & c1 & R1 & KT1 & WE1 & T1 & FN1)|(pm1 & s1 & c1 & R1 & K1 & W1 & T1 & LIM)].
    + left. split; [exact SZ|]. split; [exact FC|]. exists pm1, s1, c1. split; [rewrite RUN; unfold bind at 1; now rewrite R1|].
      split; [exact KT1|]. split; [exact WE1|]. pose proof (TS_EF _ _ _ _ _ _ _ T1) as EF1. split.
      * split; [|intros _; exact FN1]. split; [apply T1|]. split; [apply T1|]. eapply (EF_weak g OK); [|exact EF1]. intros; exact I.
      * intros off Ho. apply (EF_fbyte _ _ _ _ _ _ _ _ EF1 Ho). auto.
    + right. assert (EI : c_ino c1 = i) by apply T1. fold i in LIM. rewrite <- EI in LIM.
      destruct (iset_KT pm1 s1 c1 (iset_size size)) as (KT2 & CI2 & EF2); auto.
      set (s2 := iset_st s1 c1 (iset_size size (c_i c1))) in *. set (c2 := cset_i (iset_size size (c_i c1)) c1) in *.
      exists pm1, s2, c2. split; [rewrite RUN; rewrite (bind_ok _ _ _ _ _ R1); rewrite (iset_run g OK); reflexivity|].
      pose proof (TS_EF _ _ _ _ _ _ _ T1) as EF1. destruct T1 as (CI1 & MS1 & T1). rewrite EI in EF2. fold i in EF1.
      split; [exact KT2|]. split; [reflexivity|]. split; [destruct MS1 as (? & ? & ? & ?); repeat split; auto|].
      split; [eapply (cid_trans g OK); eauto|]. split.
      { eapply (EF_trans g OK); [|apply EF2]. eapply (EF_weak g OK); [|exact EF1]. intros; exact I. }
      intros off Ho. fold i. unfold vb at 1. destruct (N.ltb_spec off size) as [L1|L1]; auto.
      rewrite (EF_fbyte i (fun _ => False) pm1 s1 pm1 s2 i off (EF2 _) Ho) by auto. unfold vb. fold osz.
      destruct (N.ltb_spec off osz); [|lia]. apply (EF_fbyte i _ pm s pm1 s1 i off EF1 Ho). right.
      pose proof (div_eq off (BS g) BP) as DE. revert DE. generalize (off / BS g) (off mod BS g). intros; lia.
Qed.
End Trunc.
