(** Property theorems for block allocation (C05, C06) and for the coordinates of file blocks (C15). *)
From Verif Require Import Base Count FsState FsImap FsInode FsData FsTree FsImapProof.

(** * Specification vocabulary *)
(** A block is available iff its bit is clear in the working and in the committed allocation map. *)
Definition available (s : st) (b : N) : bool := negb (cur s b) && negb (com s b).
(** A block becomes available at the next transaction point: free now, but still committed. *)
Definition almost_available (s : st) (b : N) : bool := negb (cur s b) && com s b.

(** C05: a successful allocation. *)
Theorem C05_alloc_sound : forall g s b s',
  (FA g < BC g -> FA g <= m_next (s_w s) < BC g) -> FA g <= BC g ->
  RedImapAllocBlock g s = (Ok b, s') ->
  FA g <= b < BC g /\ cur s b = false /\ com s b = false /\
  cur s' b = true /\ (forall x, x <> b -> cur s' x = cur s x) /\
  s_c s' = s_c s /\ dk s' = dk s.
Proof.
  intros g s b s' Hn HF H. unfold RedImapAllocBlock in H.
  destruct (N.eqb_spec (m_free (s_w s)) 0) as [|Z]; [discriminate|].
  destruct (N.ltb_spec (m_next (s_w s)) (FA g)) as [|L1]; [discriminate|].
  destruct (N.leb_spec (BC g) (m_next (s_w s))) as [|L2]; [discriminate|]. cbn [orb] in H.
  destruct (find_free g (N.to_nat (NALLOC g)) (m_next (s_w s)) s) as [x|] eqn:E; [|discriminate].
  destruct (find_free_some g _ _ _ _ (conj L1 L2) E) as (R & C1 & C2).
  set (nx := if x + 1 =? BC g then FA g else x + 1) in H. clearbody nx.
  set (s1 := set_w (mset_next nx (s_w s)) s) in H.
  assert (HS : RedImapBlockSet g x true s1 = (Ok tt, bset g x true s1)).
  { unfold RedImapBlockSet.
    assert (ITAB g <= FA g) by (unfold FA; lia).
    destruct (N.ltb_spec x (ITAB g)); [lia|]. destruct (N.leb_spec (BC g) x); [lia|].
    destruct (N.leb_spec (FA g) x); [|lia]. cbn [orb andb negb].
    change (m_free (s_w s1)) with (m_free (s_w s)). destruct (N.eqb_spec (m_free (s_w s)) 0); [lia|]. cbn [orb].
    unfold RedImapIBlockSet. change (cur s1 x) with (cur s x). rewrite C1. cbn [Bool.eqb].
    unfold bset. destruct (N.leb_spec (FA g) x); [|lia]. reflexivity. }
  unfold critical_assert in H. rewrite HS in H. injection H as <- <-.
  rewrite bset_cur, bset_c, bset_dk_alloc. unfold s1. cbn. repeat split; try lia; auto.
  - now rewrite upd_same.
  - intros y Hy. now rewrite upd_other.
Qed.
Print Assumptions C05_alloc_sound.

(** * Histories of the allocation map: the operations the rest of the driver issues.
    [OpFree]: RedImapBlockSet(b, false) for any block number, also an invalid or free one;
    [OpInode]: RedImapBlockSet on a block of the inode table; [OpCommit]: the effect of
    RedVolTransact (volume.c:521-603) on the metaroots; [OpRollback]: of RedVolRollback
    (volume.c:621-657), which reloads the committed metaroot and zeroes ulAlmostFreeBlocks. *)
Inductive imap_op := OpAlloc | OpFree (b : N) | OpInode (b : N) (al : bool) | OpCommit | OpRollback.
Definition imap_step (g : cfg) (o : imap_op) (s : st) : st :=
  match o with
  | OpAlloc => snd (RedImapAllocBlock g s)
  | OpFree b => snd (RedImapBlockSet g b false s)
  | OpInode b al => if b <? FA g then snd (RedImapBlockSet g b al s) else s
  | OpCommit => let w := mset_free (m_free (s_w s) + s_afree s) (s_w s) in
                set_br false (set_afree 0 (set_c w (set_w w s)))
  | OpRollback => set_br false (set_afree 0 (set_w (s_c s) s))
  end.
(** A freshly formatted and mounted volume: no allocable block is used (format.c, theorem C36). *)
Definition fresh_imap (g : cfg) (s : st) : Prop :=
  s_w s = s_c s /\ s_afree s = 0 /\ m_free (s_w s) = NALLOC g /\ m_next (s_w s) = FA g /\
  forall b, FA g <= b < BC g -> cur s b = false.

(** The invariant of the history: the counters of the working state, and those of the committed
    metaroot, which become current after a rollback. *)
Definition HInv g s := ImapInv g s /\
  m_free (s_c s) = count (fun b => negb (com s b)) (FA g) (BC g) /\
  (FA g < BC g -> FA g <= m_next (s_c s) < BC g).

Lemma HInv_keep g s s' : HInv g s -> ImapInv g s' -> s_c s' = s_c s -> HInv g s'.
Proof. intros (I & H1 & H2) I' E. split; [exact I'|]. unfold com. rewrite E. auto. Qed.
Lemma set_inode_ok g b al s : b < FA g -> HInv g s -> HInv g (snd (RedImapBlockSet g b al s)).
Proof.
  intros Hb HI. unfold RedImapBlockSet. destruct ((b <? ITAB g) || (BC g <=? b)) eqn:E; [exact HI|].
  destruct (N.leb_spec (FA g) b) as [|_]; [lia|]. cbn [andb].
  unfold RedImapIBlockSet. destruct (Bool.eqb (cur s b) al) eqn:EQ.
  - unfold critical. cbn [snd]. pose proof HI as ([I1 I2 I3] & H1 & H2). eapply HInv_keep; eauto. constructor; auto.
  - cbn [snd].
    assert (EB : (let s2 := set_br true (set_w (mset_bits (upd (m_bits (s_w s)) b al) (s_w s)) s) in
                 if al then s2 else discard_block b s2) = bset g b al s).
    { unfold bset. destruct (N.leb_spec (FA g) b); [lia|]. reflexivity. }
    cbv zeta in EB. rewrite EB. eapply HInv_keep; eauto; [|apply bset_c].
    destruct HI as (I & _). apply orb_false_iff in E. destruct E as [E1 E2].
    apply N.ltb_ge in E1. apply N.leb_gt in E2.
    apply bset_inv; auto; try lia. destruct (cur s b), al; cbn in *; auto; discriminate.
Qed.

Lemma step_HInv g o s : FA g <= BC g -> HInv g s -> HInv g (imap_step g o s).
Proof.
  intros HF HI. destruct o as [|b|b al| |]; cbn [imap_step].
  - destruct HI as (I & H1 & H2). destruct (N.eq_dec (m_free (s_w s)) 0) as [Z|Z].
    + rewrite RedImapAllocBlock_full by auto. now split.
    + destruct (RedImapAllocBlock_ok g s I) as (b & Hb & C1 & C2 & R & I'); [lia|]. rewrite R. cbn [snd].
      apply (HInv_keep g s); [now split|exact I'|apply alloc_c].
  - destruct (N.lt_ge_cases b (FA g)) as [L|L]; [now apply set_inode_ok|].
    unfold RedImapBlockSet. destruct ((b <? ITAB g) || (BC g <=? b)) eqn:E; [exact HI|].
    pose proof HI as (I & H1 & H2). pose proof I as [I1 I2 I3].
    apply orb_false_iff in E. destruct E as [E1 E2]. apply N.ltb_ge in E1. apply N.leb_gt in E2.
    destruct (cur s b) eqn:Cb.
    + assert (R : RedImapBlockSet g b false s = (Ok tt, bset g b false s)).
      { apply RedImapBlockSet_ok; auto; try lia; discriminate. }
      unfold RedImapBlockSet in R. destruct (N.ltb_spec b (ITAB g)); [lia|]. destruct (N.leb_spec (BC g) b); [lia|].
      cbn [orb] in R. rewrite R. cbn [snd]. eapply HInv_keep; eauto; [|apply bset_c].
      apply bset_inv; auto; try lia; discriminate.
    + destruct ((FA g <=? b) && ((false && (m_free (s_w s) =? 0)) || (negb false && (NALLOC g <=? m_free (s_w s))))).
      * unfold critical. cbn [snd]. eapply HInv_keep; eauto. constructor; auto.
      * unfold RedImapIBlockSet. rewrite Cb. cbn [Bool.eqb]. unfold critical. cbn [snd].
        eapply HInv_keep; eauto. constructor; auto.
  - destruct (N.ltb_spec b (FA g)); [now apply set_inode_ok|exact HI].
  - destruct HI as ([I1 I2 I3] & H1 & H2).
    assert (TOT : m_free (s_w s) + s_afree s = count (fun b => negb (cur s b)) (FA g) (BC g)).
    { rewrite I1, I2. unfold count. generalize (N.to_nat (BC g - FA g)). intros n. generalize (FA g).
      induction n; intros a; cbn [cnt]; auto. rewrite <- (IHn (a + 1)). unfold free_blk, afree_blk.
      destruct (cur s a), (com s a); cbn [negb andb]; lia. }
    split; [constructor|split]; cbn.
    + rewrite TOT. apply count_ext. intros x _. unfold free_blk, cur, com; cbn.
      now destruct (m_bits (s_w s) x).
    + symmetry. apply count_0. intros x _. unfold afree_blk, cur, com; cbn. now destruct (m_bits (s_w s) x).
    + exact I3.
    + exact TOT.
    + exact I3.
  - destruct HI as ([I1 I2 I3] & H1 & H2). split; [constructor|split]; cbn; auto.
    + rewrite H1. apply count_ext. intros x _. unfold free_blk, cur, com; cbn.
      now destruct (m_bits (s_c s) x).
    + symmetry. apply count_0. intros x _. unfold afree_blk, cur, com; cbn. now destruct (m_bits (s_c s) x).
Qed.

Lemma fresh_HInv g s : fresh_imap g s -> HInv g s.
Proof.
  intros (E & A & F & Nx & Z).
  assert (ZC : forall b, FA g <= b < BC g -> com s b = false).
  { intros b Hb. unfold com. rewrite <- E. exact (Z b Hb). }
  split; [constructor|split].
  - rewrite F. unfold NALLOC. symmetry. apply count_all. intros x Hx. unfold free_blk. rewrite Z, ZC by auto. auto.
  - rewrite A. symmetry. apply count_0. intros x Hx. unfold afree_blk. rewrite ZC by auto. now rewrite andb_false_r.
  - intros. lia.
  - rewrite <- E, F. unfold NALLOC. symmetry. apply count_all. intros x Hx. rewrite ZC by auto. auto.
  - intros. rewrite <- E. lia.
Qed.

Theorem C06_counts_exact : forall g s0 ops,
  FA g <= BC g -> fresh_imap g s0 ->
  let s := fold_left (fun s o => imap_step g o s) ops s0 in
  m_free (s_w s) = count (available s) (FA g) (BC g) /\
  s_afree s = count (almost_available s) (FA g) (BC g) /\
  (fst (RedImapAllocBlock g s) = Err ENOSPC <-> forall b, FA g <= b < BC g -> available s b = false) /\
  (fst (RedImapAllocBlock g s) <> Err ENOSPC -> exists b s', RedImapAllocBlock g s = (Ok b, s') /\ available s b = true).
Proof.
  intros g s0 ops HF Fr s.
  assert (HI : HInv g s).
  { unfold s. generalize (fresh_HInv g s0 Fr). clear - HF. revert s0.
    induction ops as [|o l IH]; intros; cbn [fold_left]; auto. apply IH. now apply step_HInv. }
  destruct HI as (I & _). pose proof I as [I1 I2 I3].
  split; [exact I1|]. split; [exact I2|].
  destruct (N.eq_dec (m_free (s_w s)) 0) as [Z|Z].
  - rewrite RedImapAllocBlock_full by auto. cbn [fst]. split; [split; auto|congruence].
    intros _ b Hb. apply (count_0_inv (free_blk s) (FA g) (BC g)); auto. lia.
  - destruct (RedImapAllocBlock_ok g s I) as (b & Hb & C1 & C2 & R & I'); [lia|]. rewrite R. cbn [fst]. split.
    + split; [discriminate|]. intros X. specialize (X b Hb). unfold available in X. rewrite C1, C2 in X. discriminate.
    + intros _. exists b, (alloc_st g b s). split; auto. unfold available. now rewrite C1, C2.
Qed.
Print Assumptions C06_counts_exact.

(** In every history an allocation hands out a block that no earlier allocation still owns: the
    block is unused in the working and the committed map, and afterwards it is used. *)
Theorem C05_no_double_alloc : forall g s0 ops b s',
  FA g <= BC g -> fresh_imap g s0 ->
  let s := fold_left (fun s o => imap_step g o s) ops s0 in
  RedImapAllocBlock g s = (Ok b, s') ->
  available s b = true /\ FA g <= b < BC g /\ cur s' b = true /\ (forall x, x <> b -> cur s' x = cur s x) /\
  forall ops', (forall o, In o ops' -> o <> OpFree b /\ o <> OpRollback) ->
     cur (fold_left (fun s o => imap_step g o s) ops' s') b = true.
Proof.
  intros g s0 ops b s' HF Fr s H.
  assert (HI : HInv g s).
  { unfold s. generalize (fresh_HInv g s0 Fr). clear - HF. revert s0.
    induction ops as [|o l IH]; intros; cbn [fold_left]; auto. apply IH. now apply step_HInv. }
  clearbody s. clear s0 ops Fr.
  assert (Nx : FA g < BC g -> FA g <= m_next (s_w s) < BC g) by (destruct HI as ([_ _ I3] & _); exact I3).
  destruct (C05_alloc_sound g s b s' Nx HF H) as (R & C1 & C2 & C3 & C4 & C5 & C6).
  split; [unfold available; now rewrite C1, C2|]. split; [exact R|]. split; [exact C3|]. split; [exact C4|].
  assert (HI' : HInv g s').
  { pose proof (step_HInv g OpAlloc s HF HI) as X. cbn [imap_step] in X. rewrite H in X. exact X. }
  intros ops'. revert HI' C3. generalize s'. clear - HF R.
  induction ops' as [|o l IH]; intros t HI Ct HO; cbn [fold_left]; [exact Ct|].
  apply IH; [now apply step_HInv| |intros; apply HO; now right].
  destruct (HO o) as [O1 O2]; [now left|]. destruct o as [|x|x al| |]; cbn [imap_step].
  - destruct HI as (I & _). destruct (N.eq_dec (m_free (s_w t)) 0) as [Z|Z].
    + now rewrite RedImapAllocBlock_full.
    + destruct (RedImapAllocBlock_ok g t I) as (y & Hy & D1 & D2 & RR & I'); [lia|]. rewrite RR. cbn [snd].
      rewrite alloc_cur. unfold upd. now destruct (b =? y).
  - assert (x <> b) by congruence. unfold RedImapBlockSet. destruct ((x <? ITAB g) || (BC g <=? x)); [exact Ct|].
    destruct ((FA g <=? x) && _); [exact Ct|]. unfold RedImapIBlockSet.
    destruct (Bool.eqb (cur t x) false); [exact Ct|]. cbn iota beta.
    assert (Q : forall v, cur (discard_block x (set_br true (set_w (mset_bits (upd (m_bits (s_w t)) x v) (s_w t)) t))) b = true).
    { intros v. unfold discard_block. destruct (com _ x); unfold cur; cbn; rewrite upd_other; auto. }
    destruct (FA g <=? x); [destruct (com _ x)|]; unfold cur; cbn; apply Q.
  - destruct (N.ltb_spec x (FA g)) as [L|L]; [|exact Ct]. assert (x <> b) by lia.
    unfold RedImapBlockSet. destruct ((x <? ITAB g) || (BC g <=? x)); [exact Ct|].
    destruct ((FA g <=? x) && _); [exact Ct|]. unfold RedImapIBlockSet.
    destruct (Bool.eqb (cur t x) al); [exact Ct|]. cbn iota beta.
    assert (Q : forall v, cur (set_br true (set_w (mset_bits (upd (m_bits (s_w t)) x v) (s_w t)) t)) b = true).
    { intros v. unfold cur; cbn; rewrite upd_other; auto. }
    assert (Q' : forall v, cur (discard_block x (set_br true (set_w (mset_bits (upd (m_bits (s_w t)) x v) (s_w t)) t))) b = true).
    { intros v. unfold discard_block. destruct (com _ x); apply Q. }
    destruct (FA g <=? x); destruct al; cbn [snd]; [unfold cur; cbn; apply Q| |apply Q|apply Q'].
    destruct (com _ x); unfold cur; cbn; apply Q'.
  - unfold cur; cbn. exact Ct.
  - congruence.
Qed.
Print Assumptions C05_no_double_alloc.

(** Non-trivial instance: a small volume, some allocations, a free, a commit. *)
Definition g_ex : cfg := mkCfg 512 10 2 4 100 64 3 10 3 12 (fun b => match b with BData f => f | _ => fun _ => 0 end).
Definition s_ex : st :=
  let m := mkMR (fun b => b =? 4) (NALLOC g_ex) (FA g_ex) 9 in
  mkSt (fun _ => BJunk) (fun _ => false) m m 0 false false false.
Example C06_instance : FA g_ex <= BC g_ex /\ fresh_imap g_ex s_ex /\
  let s := fold_left (fun s o => imap_step g_ex o s)
      [OpAlloc; OpAlloc; OpFree 23; OpCommit; OpFree 24; OpAlloc; OpFree 99; OpRollback; OpAlloc] s_ex in
  (cur s 24 = true /\ cur s 25 = true /\ m_free (s_w s) = NALLOC g_ex - 2).
Proof.
  split; [vm_compute; congruence|]. split; [|vm_compute; auto].
  repeat split. intros b Hb. unfold cur. cbn. destruct (N.eqb_spec b 4); auto.
  unfold FA in Hb. cbn in Hb. lia.
Qed.

(** * C15: coordinates of file blocks *)
(** The coordinates the code computes: entry in the inode, in the double indirect node and in the indirect
    node. *)
Definition coords (c : cin) : N * option N * option N := (c_e c, c_de c, c_ie c).
(** Coordinates that select an existing slot of the arrays. *)
Definition coords_in_range (g : cfg) (x : N * option N * option N) : Prop :=
  let '(e, de, ie) := x in
  e < IE g /\
  match de, ie with
  | None, None => e < NDIR g
  | None, Some k => NDIR g <= e < NDIR g + NIND g /\ k < PE g
  | Some d, Some k => NDIR g + NIND g <= e /\ d < PE g /\ k < PE g
  | Some _, None => False
  end.
(** A cached inode structure just after the inode was mounted, and after any sequence of seeks. *)
Definition seeks (g : cfg) (c : cin) (ls : list N) : cin := fold_left (fun c l => SeekCoord g l c) ls c.

Section C15.
Variable g : cfg.
Hypothesis OK : cfg_ok g.

Definition good (c : cin) : Prop := CINODE_IS_MOUNTED g c = true /\
  (c_inited c = true -> c_l c < INODE_DATA_BLOCKS g /\ coords c = (co_e g (c_l c), co_de g (c_l c), co_ie g (c_l c))).
Lemma SeekCoord_mnt l c : CINODE_IS_MOUNTED g (SeekCoord g l c) = CINODE_IS_MOUNTED g c.
Proof.
  unfold SeekCoord. destruct (negb _ || _); auto. destruct (negb (c_l c =? l) || _); auto.
  repeat (match goal with |- context[if ?b then _ else _] => destruct b end); reflexivity.
Qed.
Lemma SeekCoord_at l c : good c -> l < INODE_DATA_BLOCKS g ->
  c_inited (SeekCoord g l c) = true /\ c_l (SeekCoord g l c) = l /\
  coords (SeekCoord g l c) = (co_e g l, co_de g l, co_ie g l).
Proof.
  intros (M & G) Hl. unfold SeekCoord. rewrite M. destruct (N.leb_spec (INODE_DATA_BLOCKS g) l); [lia|]. cbn [negb orb].
  destruct (negb (c_l c =? l) || negb (c_inited c)) eqn:E.
  - unfold co_e, co_de, co_ie.
    destruct (l <? NDIR g); [auto|]. destruct (l <? INODE_INDIR_BLOCKS g + NDIR g).
    + match goal with |- context[if ?b then _ else _] => destruct b end; auto.
    + repeat (match goal with |- context[if ?b then _ else _] => destruct b end); auto.
  - apply orb_false_iff in E. destruct E as [E1 E2]. apply negb_false_iff in E1, E2. apply N.eqb_eq in E1. subst l.
    destruct (G E2). auto.
Qed.
Lemma SeekCoord_good l c : good c -> good (SeekCoord g l c).
Proof.
  intros G. pose proof G as [M G2]. split; [rewrite SeekCoord_mnt; auto|].
  destruct (N.lt_ge_cases l (INODE_DATA_BLOCKS g)) as [L|L].
  - destruct (SeekCoord_at l c G L) as (E1 & E2 & E3). intros _. rewrite E2, E3. auto.
  - assert (E : SeekCoord g l c = c).
    { unfold SeekCoord. destruct (N.leb_spec (INODE_DATA_BLOCKS g) l); [|lia]. now rewrite orb_true_r. }
    rewrite E. exact G2.
Qed.
Lemma seeks_good ls c : good c -> good (seeks g c ls).
Proof. revert c; induction ls; intros c H; cbn; auto. apply IHls. now apply SeekCoord_good. Qed.
End C15.

(** Where a seek ends up depends only on the block number: in range, the same for every history of
    earlier seeks, and different for different block numbers. *)
Theorem C15_seek_injective : forall g, cfg_ok g -> forall c1 c2 ls1 ls2 l1 l2,
  CINODE_IS_MOUNTED g c1 = true -> c_inited c1 = false -> CINODE_IS_MOUNTED g c2 = true -> c_inited c2 = false ->
  l1 < INODE_DATA_BLOCKS g -> l2 < INODE_DATA_BLOCKS g ->
  let x1 := coords (SeekCoord g l1 (seeks g c1 ls1)) in
  let x2 := coords (SeekCoord g l2 (seeks g c2 ls2)) in
  coords_in_range g x1 /\ (x1 = x2 <-> l1 = l2).
Proof.
  intros g OK c1 c2 ls1 ls2 l1 l2 M1 I1 M2 I2 H1 H2.
  assert (G1 : good g (seeks g c1 ls1)) by (apply seeks_good; auto; split; auto; congruence).
  assert (G2 : good g (seeks g c2 ls2)) by (apply seeks_good; auto; split; auto; congruence).
  destruct (SeekCoord_at g _ _ G1 H1) as (_ & _ & ->). destruct (SeekCoord_at g _ _ G2 H2) as (_ & _ & ->).
  cbv zeta. split.
  - unfold coords_in_range. pose proof (ok_IE g OK).
    destruct (co_cases g OK l1 H1) as [? E D I|? ? ? ? ? D I|? ? ? ? ? ? ? D I]; rewrite D, I; repeat split; lia.
  - split; [|congruence]. intros E. injection E as E1 E2 E3. apply (pT_inj g OK); auto.
    unfold pT, pI. now rewrite E1, E2, E3.
Qed.
Print Assumptions C15_seek_injective.

(** The maximum file size is the number of bytes of the slots, capped at 2^32-1 blocks, and every
    slot below the cap is the place of exactly one block number. *)
Theorem C15_max_size : forall g, cfg_ok g ->
  INODE_SIZE_MAX g = BS g * N.min UINT32_MAX (NDIR g + NIND g * PE g + (IE g - NDIR g - NIND g) * (PE g * PE g)).
Proof.
  intros g OK. unfold INODE_SIZE_MAX. f_equal. unfold INODE_DATA_BLOCKS, INODE_DINDIR_BLOCKS, DINDIR_POINTERS_MAX,
    INODE_DINDIR_BLOCKS_MAX, DINDIR_DATA_BLOCKS, INODE_INDIR_BLOCKS, DINDIR_POINTERS.
  pose proof (ok_IND32 g OK) as H32. pose proof (ok_PE g OK) as HP.
  assert (HQ : 0 < PE g * PE g) by nia.
  revert H32 HQ. generalize (NIND g * PE g) (PE g * PE g) (NDIR g) (IE g - NDIR g - NIND g). clear.
  intros a q d n H32 HQ. set (m := UINT32_MAX - (d + a)).
  pose proof (N.div_mod m q). pose proof (N.mod_lt m q).
  assert (Hm : d + a + m = UINT32_MAX) by (unfold m; lia). clearbody m.
  destruct (N.eqb_spec (m mod q) 0) as [Z|Z].
  - rewrite N.add_0_r. destruct (N.leb_spec (m / q) n).
    + assert (m <= n * q) by nia. lia.
    + assert (n * q <= m) by nia. lia.
  - destruct (N.leb_spec (m / q + 1) n).
    + assert (m <= n * q) by nia. lia.
    + assert (n * q <= m) by nia. lia.
Qed.
Print Assumptions C15_max_size.

Theorem C15_slots_covered : forall g, cfg_ok g -> forall e de ie,
  coords_in_range g (e, de, ie) ->
  exists l, l < NDIR g + NIND g * PE g + (IE g - NDIR g - NIND g) * (PE g * PE g) /\
  (l < INODE_DATA_BLOCKS g -> forall c, CINODE_IS_MOUNTED g c = true -> c_inited c = false ->
     coords (SeekCoord g l c) = (e, de, ie)).
Proof.
  intros g OK e de ie (HE & H).
  pose proof (ok_PE g OK) as HP. pose proof (ok_IE g OK) as HIE.
  assert (AT : forall l c, l < INODE_DATA_BLOCKS g -> CINODE_IS_MOUNTED g c = true -> c_inited c = false ->
     coords (SeekCoord g l c) = (co_e g l, co_de g l, co_ie g l)).
  { intros l c Hl M I. apply SeekCoord_at; auto. split; auto. congruence. }
  assert (UNI : forall l p, l < INODE_DATA_BLOCKS g -> pT g l = p ->
     (co_e g l, co_de g l, co_ie g l) = match p with P1 e => (e, None, None) | P2 e k => (e, None, Some k) | P3 e d k => (e, Some d, Some k) end).
  { intros l p Hl <-. destruct (co_cases g OK l Hl) as [? E D I ? ? X|? ? ? ? ? D I ? ? ? X|? ? ? ? ? ? ? D I ? ? ? X];
      rewrite X, D, I; congruence. }
  set (p := match de, ie with None, None => P1 e | None, Some k => P2 e k | Some d, Some k => P3 e d k | Some d, None => P1 e end).
  assert (V : vptr g p /\ phgt g p = 0 /\ lfirst g p < NDIR g + NIND g * PE g + (IE g - NDIR g - NIND g) * (PE g * PE g)).
  { unfold p. destruct (hcases g e) as [Hh Eh Ef|Hh Eh Ef|Hh Eh Ef]; destruct de as [d|], ie as [k|]; try lia; cbn; rewrite Eh, Ef; cbn.
    - lia.
    - repeat split; try lia.
      assert ((e - NDIR g) * PE g + PE g <= NIND g * PE g) by (assert (e - NDIR g + 1 <= NIND g) by lia; nia).
      revert H0. generalize ((e - NDIR g) * PE g) (NIND g * PE g) ((IE g - NDIR g - NIND g) * (PE g * PE g)).
      change (1 =? 2) with false. cbn iota. intros; lia.
    - repeat split; try lia.
      assert (e - NDIR g - NIND g + 1 <= IE g - NDIR g - NIND g) by lia.
      assert ((e - NDIR g - NIND g) * (PE g * PE g) + PE g * PE g <= (IE g - NDIR g - NIND g) * (PE g * PE g)) by nia.
      assert (d * PE g + k < PE g * PE g) by nia.
      revert H1 H2. generalize ((e - NDIR g - NIND g) * (PE g * PE g)) ((IE g - NDIR g - NIND g) * (PE g * PE g)) (NIND g * PE g) (d * PE g) (PE g * PE g). intros; lia. }
  destruct V as (V1 & V2 & V3). exists (lfirst g p). split; [exact V3|].
  intros Hl c M I. rewrite AT by auto. rewrite (UNI _ p Hl (data_slot g OK p V1 V2)).
  unfold p. destruct de, ie; auto; contradiction.
Qed.
Print Assumptions C15_slots_covered.

Example C15_instance : cfg_ok g_ex /\ INODE_DATA_BLOCKS g_ex = 2 + 400 + 40000 /\
  let c := cset_buf 2 true 3 inode0 false false false (cin0 2) in
  CINODE_IS_MOUNTED g_ex c = true /\ c_inited c = false /\
  coords (SeekCoord g_ex 10345 (seeks g_ex c [3; 40000; 2])) = (6, Some 99, Some 43).
Proof.
  split; [constructor; vm_compute; auto; discriminate|]. vm_compute. auto.
Qed.
