(** Elementary steps of the data code preserve the structural invariant. *)
From Verif Require Import Base Count FsState FsImap FsInode FsData FsTree FsImapProof FsWp FsInv.
Ltac Zify.zify_post_hook ::= idtac.

Section Step.
Variable g : cfg.
Hypothesis OK : cfg_ok g.
Set Default Proof Using "OK".

Lemma Rep_upd d d' vw i0 (D D' : ptr -> Prop) pm p v :
  Rep g d vw i0 D pm ->
  (forall j q, pm j q <> 0 -> 0 < phgt g q -> (j <> i0 \/ q <> p) -> d' (pm j q) = d (pm j q)) ->
  (v <> 0 -> 0 < phgt g p -> exists o e, d' v = mknode (phgt g p) o e /\
      forall k, k < PE g -> ~ D' (child p k) -> e k = pm i0 (child p k)) ->
  (v = 0 -> 0 < phgt g p -> forall k, k < PE g -> pm i0 (child p k) = 0) ->
  (v <> 0 -> forall q k, child q k = p -> 0 < phgt g q -> k < PE g -> pm i0 q <> 0) ->
  D' p -> (forall q, D q -> D' q \/ (v = 0 /\ 0 < phgt g p /\ exists k, q = child p k)) ->
  Rep g d' vw i0 D' (pupd pm i0 p v).
Proof.
  intros [A1 A2 A3] Hd Hn Hz Hp Dp HD.
  assert (DEC : forall j q, (j = i0 /\ q = p) \/ (j <> i0 \/ q <> p)).
  { intros. destruct (N.eq_dec j i0), (ptr_eqb_spec q p); auto. }
  constructor.
  - intros j io e Hv He Hnd. rewrite pupd_other.
    + apply A1; auto. intros [-> Hx]. destruct (HD _ Hx) as [Hy|(E & Hh & k & Ek)]; [auto|].
      destruct p; discriminate.
    + destruct (DEC j (P1 e)) as [[-> E]|]; auto. destruct Hnd. split; auto. now rewrite E.
  - intros j q Hq Hh. destruct (DEC j q) as [[-> ->]|Dj].
    + rewrite pupd_same in *. destruct (Hn Hq Hh) as (o & e & E & HE). exists o, e. split; auto.
      intros k Hk Hnd. rewrite pupd_ptr by (now apply (child_ne g)). apply HE; auto.
    + rewrite pupd_other in * by auto. destruct (A2 j q Hq Hh) as (o & e & E & HE). exists o, e.
      rewrite (Hd j q) by auto. split; auto. intros k Hk Hnd. rewrite pupd_other.
      * apply HE; auto. intros [-> Hx]. destruct (HD _ Hx) as [Hy|(Ev & Hhp & k' & Ek)]; [auto|].
        apply child_inj with (g := g) in Ek; auto. destruct Ek as [-> _]. destruct Dj; congruence.
      * destruct (DEC j (child q k)) as [[-> E']|]; auto. destruct Hnd; split; auto. now rewrite E'.
  - intros j q k Hq Hh Hk. destruct (DEC j q) as [[-> ->]|Dj].
    + rewrite pupd_same in Hq. rewrite pupd_ptr by (now apply (child_ne g)). auto.
    + rewrite pupd_other in Hq by auto. destruct (DEC j (child q k)) as [[-> E]|Dc].
      * rewrite E, pupd_same. destruct (N.eq_dec v 0); auto. destruct (Hp n q k E Hh Hk Hq).
      * rewrite pupd_other by auto. auto.
Qed.

(** Changing the contents of a single block that is not a node of the tree. *)
Lemma Rep_dk d d' vw i0 D pm :
  Rep g d vw i0 D pm -> (forall j q, pm j q <> 0 -> 0 < phgt g q -> d' (pm j q) = d (pm j q)) -> Rep g d' vw i0 D pm.
Proof.
  intros [A1 A2 A3] H. constructor; auto. intros j p Hp Hh. rewrite H by auto. auto.
Qed.

Lemma ImapInv_dk s s' : s_w s' = s_w s -> s_c s' = s_c s -> s_afree s' = s_afree s -> ImapInv g s -> ImapInv g s'.
Proof.
  destruct s, s'; cbn. intros -> -> -> [H1 H2 H3]. constructor; auto.
Qed.

Definition Dsub (D : ptr -> Prop) (p : ptr) : ptr -> Prop := fun q => D q /\ q <> p.
Definition Dadd (D : ptr -> Prop) (p : ptr) : ptr -> Prop := fun q => D q \/ q = p.

Lemma mknode_phgt h o e o' e' : mknode h o e = mknode h o' e' -> o = o' /\ e = e'.
Proof. unfold mknode. destruct (h =? 2); intros E; inversion E; auto. Qed.

(** * The mounted inode structure agrees with the volume *)
Record CM (s : st) (c : cin) : Prop := {
  cm_val : INODE_IS_VALID g (c_ino c) = true;
  cm_mnt : c_mnt c = true;
  cm_slot : isslot g (c_ino c) (c_blk c);
  cm_cur : cur s (c_blk c) = true;
  cm_br : c_br c = negb (com s (c_blk c));
  cm_dirty : c_dirty c = true -> com s (c_blk c) = false /\ dk s (c_blk c) = BInode (c_i c) }.

Lemma CM_mounted s c : CM s c -> CINODE_IS_MOUNTED g c = true.
Proof. intros H. unfold CINODE_IS_MOUNTED. now rewrite (cm_val _ _ H), (cm_mnt _ _ H). Qed.
Lemma CM_isdirty s c : CM s c -> CINODE_IS_DIRTY g c = c_dirty c.
Proof. intros H. unfold CINODE_IS_DIRTY. now rewrite (CM_mounted _ _ H). Qed.
Lemma CM_lv s c : CM s c -> lv g s (c_ino c) = true.
Proof.
  intros [V _ (_ & w & Hw & E) Hc _ _]. unfold lv. rewrite V. cbn [andb]. rewrite E in Hc.
  assert (D : w = 0 \/ w = 1) by lia. destruct D as [-> | ->]; rewrite Hc; auto using orb_true_r.
Qed.
Lemma CM_blk s c : CM s c -> c_blk c < FA g /\ ITAB g <= c_blk c.
Proof. intros [V _ (_ & w & Hw & E) _ _ _]. rewrite E. pose proof (slot_rng g OK _ w V Hw). lia. Qed.
Lemma CM_dk s s' c : CM s c -> cur s' (c_blk c) = cur s (c_blk c) -> com s' (c_blk c) = com s (c_blk c) ->
  dk s' (c_blk c) = dk s (c_blk c) -> CM s' c.
Proof. intros [H1 H2 H3 H4 H5 H6] E1 E2 E3. constructor; auto; rewrite ?E1, ?E2, ?E3; auto. Qed.
(** changes of the coordinate fields only *)
Lemma CM_coord s c ini l e de ie db ib dat pd pi pb : CM s c -> CM s (cset_coord ini l e de ie db ib dat pd pi pb c).
Proof. intros [H1 H2 H3 H4 H5 H6]. constructor; auto. Qed.

(** Store to the inode buffer. *)
Definition iset_st (s : st) (c : cin) (io' : inode) : st :=
  if c_dirty c then dk_write (c_blk c) (BInode io') s else s.
Lemma iset_run f s c : iset f (s, c) = (Ok tt, (iset_st s c (f (c_i c)), cset_i (f (c_i c)) c)).
Proof. unfold iset, iset_st. cbn. destruct (c_dirty c); reflexivity. Qed.
Lemma iset_cur s c io b : cur (iset_st s c io) b = cur s b.
Proof. unfold iset_st. now destruct (c_dirty c). Qed.
Lemma iset_com s c io b : com (iset_st s c io) b = com s b.
Proof. unfold iset_st. now destruct (c_dirty c). Qed.
Lemma iset_w s c io : s_w (iset_st s c io) = s_w s.
Proof. unfold iset_st. now destruct (c_dirty c). Qed.
Lemma iset_afree s c io : s_afree (iset_st s c io) = s_afree s.
Proof. unfold iset_st. now destruct (c_dirty c). Qed.
Lemma iset_dk s c io b : b <> c_blk c -> dk (iset_st s c io) b = dk s b.
Proof. unfold iset_st. destruct (c_dirty c); auto. cbn. intros; now apply upd_other. Qed.
Lemma iset_CM s c io : CM s c -> CM (iset_st s c io) (cset_i io c).
Proof.
  intros [H1 H2 H3 H4 H5 H6]. constructor; auto; try (rewrite ?iset_cur, ?iset_com; auto; fail).
  cbn. intros Hd. rewrite iset_com. destruct (H6 Hd). split; auto. unfold iset_st. rewrite Hd. cbn. now rewrite upd_same.
Qed.
(** * Branching one block *)
Definition kh (k : kind) : N := match k with KData => 0 | KIndir => 1 | KDindir => 2 end.
Definition ppar (p : ptr) : option ptr := match p with P1 _ => None | P2 e _ => Some (P1 e) | P3 e d _ => Some (P2 e d) end.
Lemma ppar_child q k p : child q k = p -> 0 < phgt g q -> ppar p = Some q.
Proof. intros <-. destruct q; cbn; auto. lia. Qed.


Variable C0 : mroot.
Variable D0 : N -> blk.
Variable R0 : bool.
Notation Core := (Core g C0 D0 R0).

Lemma Core_ext i0 io L pm pm' D s : (forall j q, pm' j q = pm j q) -> Core i0 io L pm D s -> Core i0 io L pm' D s.
Proof.
  intros E K. eapply (Core_step g OK); eauto; try apply K; try (intros; auto; fail).
  - apply (lows_refl g OK).
  - destruct (k_tree K) as [A1 A2 A3 A4]. constructor; intros *; rewrite ?E; auto.
    intros Hb Hc. destruct (A4 _ Hb Hc) as (i & p & H). exists i, p. now rewrite E.
  - destruct (k_rep K) as [A1 A2 A3]. constructor; intros *; rewrite ?E; auto.
    intros H1 H2. destruct (A2 _ _ H1 H2) as (o & e & X & Y). exists o, e. split; auto.
    intros. rewrite E. auto.
  - destruct (k_lim0 K) as [A1 A2 A3]. constructor; auto. intros p; rewrite E; auto.
  - apply (brk_refl g OK).
Qed.

(** Writing (or just dirtying) a block: [d'] is the new disk, changed at most at [b]. *)
Lemma Core_write i0 io io' L L' pm D D' s b v :
  Core i0 io L pm D s -> com s b = false -> ITAB g <= b < BC g -> cur s b = true -> (b < FA g -> isslot g i0 b) ->
  Rep g (upd (dk s) b v) (view g s i0 io') i0 D' pm -> Lim g pm i0 io' L' ->
  Core i0 io' L' pm D' (dk_write b v s).
Proof.
  intros K Hc Hr Hcu Hs HRep HLim. eapply (Core_step g OK); eauto; try reflexivity; try apply K.
  - intros x Hx. split; [reflexivity|]. cbn. destruct (N.eq_dec x b) as [->|]; auto. right. now apply upd_other.
  - eapply ImapInv_dk; [| | |apply K]; reflexivity.
  - intros x Hx. cbn. apply upd_other. intros ->. congruence.
  - intros x. cbn. unfold upd. destruct (N.eqb_spec x b) as [->|]; auto.
  - apply (brk_true g OK). exact (Core_new OK K Hcu Hc).
Qed.
Lemma Core_dirty i0 io L pm D s b :
  Core i0 io L pm D s -> com s b = false -> ITAB g <= b < BC g -> cur s b = true -> Core i0 io L pm D (dk_dirty b s).
Proof.
  intros K Hc Hr Hcu. eapply (Core_step g OK); eauto; try reflexivity; try apply K.
  - intros x Hx. split; auto.
  - eapply ImapInv_dk; [| | |apply K]; reflexivity.
  - intros x. cbn. unfold upd. destruct (N.eqb_spec x b) as [->|]; auto.
  - apply (brk_true g OK). exact (Core_new OK K Hcu Hc).
Qed.

(** Writing a data block of the tree. *)
Lemma Core_data i0 io L pm D s l v :
  Core i0 io L pm D s -> l < INODE_DATA_BLOCKS g -> pm i0 (pT g l) <> 0 -> com s (pm i0 (pT g l)) = false ->
  Core i0 io L pm D (dk_write (pm i0 (pT g l)) v s).
Proof.
  intros K Hl Hp Hc. destruct (Core_blk OK K Hp) as (R & Cu & V & Lv).
  eapply Core_write; eauto; try (exact (k_lim0 K)).
  - pose proof (ITAB_FA g OK). lia.
  - lia.
  - eapply Rep_dk; [apply K|]. intros j q Hq Hh. apply upd_other. intros E.
    destruct (Core_inj OK K Hq E) as [_ ->]. rewrite (pT_phgt g OK) in Hh; auto. lia.
Qed.

(** Storing an entry of a node: the slot becomes in sync. *)
Lemma node_set_spec i0 io L pm D s q k v :
  Core i0 io L pm D s -> pm i0 q <> 0 -> 0 < phgt g q -> com s (pm i0 q) = false -> k < PE g ->
  v = pm i0 (child q k) ->
  exists x, node_set (pm i0 q) k v s = (Ok tt, dk_write (pm i0 q) x s) /\
    Core i0 io L pm (Dsub D (child q k)) (dk_write (pm i0 q) x s).
Proof.
  intros K Hq Hh Hc Hk Hv. destruct (Core_blk OK K Hq) as (R & Cu & V & Lv).
  pose proof (k_rep K) as [A1 A2 A3].
  destruct (A2 i0 q Hq Hh) as (o & e & E & HE).
  exists (mknode (phgt g q) o (upd e k v)). split.
  - unfold node_set. rewrite E. unfold mknode. now destruct (phgt g q =? 2).
  - eapply Core_write; eauto; try (exact (k_lim0 K)).
    + pose proof (ITAB_FA g OK). lia.
    + lia.
    + constructor; auto.
      * intros j x e' Hj He Hnd. apply A1; auto. intros [-> Hx]. apply Hnd. split; auto. split; auto.
        destruct q; discriminate.
      * intros j p Hp Hhp. destruct (N.eq_dec (pm j p) (pm i0 q)) as [Eb|Nb].
        -- destruct (Core_inj OK K Hp Eb) as [-> ->].
           rewrite upd_same. exists o, (upd e k v). split; auto. intros k' Hk' Hnd.
           unfold upd. destruct (N.eqb_spec k' k) as [->|Nk]; auto. apply HE; auto. intros [_ Hx]. apply Hnd.
           split; auto. split; auto. intros Ec. apply (child_inj g) in Ec; auto. tauto.
        -- rewrite upd_other by auto. destruct (A2 j p Hp Hhp) as (o' & e' & E' & HE'). exists o', e'. split; auto.
           intros k' Hk' Hnd. apply HE'; auto. intros [-> Hx]. apply Hnd. split; auto. split; auto.
           intros Ec. apply (child_inj g) in Ec; auto. destruct Ec; congruence.
Qed.

Lemma node_owner_spec i0 io L pm D s q n :
  Core i0 io L pm D s -> pm i0 q <> 0 -> 0 < phgt g q -> com s (pm i0 q) = false ->
  exists x, node_owner (pm i0 q) n s = (Ok tt, dk_write (pm i0 q) x s) /\
    Core i0 io L pm D (dk_write (pm i0 q) x s).
Proof.
  intros K Hq Hh Hc. destruct (Core_blk OK K Hq) as (R & Cu & V & Lv).
  pose proof (k_rep K) as [A1 A2 A3].
  destruct (A2 i0 q Hq Hh) as (o & e & E & HE).
  exists (mknode (phgt g q) n e). split.
  - unfold node_owner. rewrite E. unfold mknode. now destruct (phgt g q =? 2).
  - eapply Core_write; eauto; try (exact (k_lim0 K)).
    + pose proof (ITAB_FA g OK). lia.
    + lia.
    + constructor; auto. intros j p Hp Hhp. destruct (N.eq_dec (pm j p) (pm i0 q)) as [Eb|Nb].
      * destruct (Core_inj OK K Hp Eb) as [-> ->].
        rewrite upd_same. exists n, e. auto.
      * rewrite upd_other by auto. auto.
Qed.

Lemma iset_Core s c io' L L' pm D D' :
  CM s c -> Core (c_ino c) (c_i c) L pm D s ->
  (forall e, e < IE g -> ~ D' (P1 e) -> i_ent io' e = pm (c_ino c) (P1 e)) ->
  (forall p, D p -> D' p \/ exists e, p = P1 e) ->
  Lim g pm (c_ino c) io' L' ->
  Core (c_ino c) io' L' pm D' (iset_st s c io').
Proof.
  intros M K He HD HL.
  assert (HR : forall d, (forall b, FA g <= b -> d b = dk s b) -> Rep g d (view g s (c_ino c) io') (c_ino c) D' pm).
  { intros d Hd. pose proof (k_rep K) as [A1 A2 A3]. constructor; auto.
    - intros j x e. unfold view. destruct (N.eqb_spec j (c_ino c)) as [->|Nj].
      + intros E; injection E as <-. intros Hx Hnd. apply He; auto.
      + intros Hj Hx _. apply A1; auto.
        * unfold view. destruct (N.eqb_spec j (c_ino c)); congruence.
        * intros [? _]; congruence.
    - intros j p Hp Hh. rewrite Hd.
      + destruct (A2 j p Hp Hh) as (o & e & E & HE). exists o, e. split; auto. intros k Hk Hnd. apply HE; auto.
        intros [-> Hx]. destruct (HD _ Hx) as [|[e' E']]; auto. destruct p; discriminate.
      + pose proof (Core_blk OK K Hp). lia. }
  unfold iset_st. destruct (c_dirty c) eqn:Hdirty.
  - destruct (cm_dirty _ _ M Hdirty) as [Hc _]. pose proof (CM_blk _ _ M). pose proof (FA_BC g OK).
    eapply Core_write; eauto; try lia.
    + apply M.
    + intros _. apply M.
    + apply HR. intros b Hb. apply upd_other. lia.
  - eapply (Core_step g OK); eauto; try reflexivity; try apply K; auto. apply (lows_refl g OK). apply (brk_refl g OK).
Qed.

Lemma get_kind_ok i0 io L pm D s j p k :
  Core i0 io L pm D s -> pm j p <> 0 -> kh k = phgt g p ->
  exists v, get_kind g k (pm j p) s = (Ok v, s) /\ data_of g v = data_of g (dk s (pm j p)) /\
    (0 < phgt g p -> v = dk s (pm j p)).
Proof.
  intros K Hp Hk. pose proof (k_rep K) as [A1 A2 A3]. unfold get_kind.
  destruct k; cbn in Hk.
  - eexists. split; [reflexivity|]. split; auto. lia.
  - destruct (A2 j p Hp) as (o & e & E & _); [lia|]. rewrite E. unfold mknode. rewrite <- Hk.
    change (1 =? 2) with false. cbn iota. eexists; split; [reflexivity|]; auto.
  - destruct (A2 j p Hp) as (o & e & E & _); [lia|]. rewrite E. unfold mknode. rewrite <- Hk.
    change (2 =? 2) with true. cbn iota. eexists; split; [reflexivity|]; auto.
Qed.

Lemma BranchOneBlock_spec i0 io L pm D s p k buf :
  Core i0 io L pm D s -> lv g s i0 = true -> vptr g p -> kh k = phgt g p -> lfirst g p * BS g < L ->
  match ppar p with None => True | Some q => pm i0 q <> 0 end ->
  (buf = Some true -> pm i0 p <> 0) -> (0 < phgt g p -> buf <> None) ->
  (pm i0 p <> 0 /\ com s (pm i0 p) = false) \/ 0 < m_free (s_w s) ->
  (pm i0 p = 0 -> N.min (RESV g) (NALLOC g) < m_free (s_w s) + s_afree s) ->
  exists nb s', BranchOneBlock g (pm i0 p) buf k s = (Ok nb, s') /\
    nb <> 0 /\ com s nb = false /\ FA g <= nb < BC g /\
    Core i0 io L (pupd pm i0 p nb) (Dadd D p) s' /\
    (forall b, b <> nb -> dk s' b = dk s b) /\
    (forall j q, pm j q = nb -> j = i0 /\ q = p) /\
    (buf <> None -> k = KData -> forall x, data_of g (dk s' nb) x = if pm i0 p =? 0 then 0 else data_of g (dk s (pm i0 p)) x) /\
    m_free (s_w s) = m_free (s_w s') + (if (pm i0 p =? 0) || com s (pm i0 p) then 1 else 0) /\
    m_free (s_w s) + s_afree s = m_free (s_w s') + s_afree s' + (if pm i0 p =? 0 then 1 else 0) /\
    (forall b, b < FA g -> cur s' b = cur s b).
Proof.
  intros K Hlv Hv Hk Hlim Hpar Hb1 Hb2 Hfree Hrsv.
  pose proof (FA_pos g OK) as FP. pose proof (ITAB_FA g OK) as IF.
  set (prev := pm i0 p) in *.
  unfold BranchOneBlock.
  destruct (N.eqb_spec prev 0) as [P0|P0].
  - (* sparse *)
    destruct Hfree as [[Hx _]|Hfree]; [congruence|].
    destruct (RedImapAllocBlock_ok g s (k_imap K) Hfree) as (nb & Rnb & Cnb & Mnb & RUN & IV).
    set (s1 := alloc_st g nb s) in *.
    assert (N0 : nb <> 0) by lia.
    set (s2 := match buf with Some false => dk_write nb (zero_blk k) s1 | _ => s1 end).
    assert (R2 : (a <- ret FREE ;; match a with
        | NEW => (match buf with | Some true => modify (dk_dirty prev)
                | Some false => v <- get_kind g k prev;; modify (dk_dirty prev) | None => ret tt end);;; ret prev
        | _ => nb0 <- RedImapAllocBlock g ;;
            (match buf with | Some true => fail EINVAL
              | Some false => modify (dk_write nb0 (zero_blk k)) | None => ret tt end);;; ret nb0 end) s = (Ok nb, s2)).
    { unfold bind at 1. cbn [ret]. unfold bind at 1. rewrite RUN. fold s1.
      destruct buf as [[|]|]; try reflexivity. exfalso. apply Hb1; auto. }
    exists nb, s2.
    split; [exact R2|]. split; auto. split; auto. split; auto.
    assert (EW : s_w s2 = s_w s1) by (unfold s2; destruct buf as [[|]|]; reflexivity).
    assert (EC : forall b, cur s2 b = upd (cur s) nb true b).
    { intros b. unfold cur at 1. rewrite EW. change (m_bits (s_w s1) b) with (cur s1 b). unfold s1. now rewrite alloc_cur. }
    assert (EA : s_afree s2 = s_afree s1) by (unfold s2; destruct buf as [[|]|]; reflexivity).
    assert (EA1 : s_afree s1 = s_afree s).
    { unfold s1, alloc_st. rewrite bset_afree. destruct (N.leb_spec (FA g) nb); [reflexivity|lia]. }
    assert (EF : m_free (s_w s2) = m_free (s_w s) - 1) by (rewrite EW; unfold s1; rewrite alloc_free; [reflexivity|lia]).
    assert (ED : forall b, b <> nb -> dk s2 b = dk s b).
    { intros b Hb. unfold s2. destruct buf as [[|]|]; cbn; rewrite ?upd_other by auto; unfold s1; now rewrite alloc_dk. }
    assert (FR : forall j q, pm j q = nb -> False).
    { intros j q E. destruct (Core_blk OK (i:=j) (p:=q) K) as (_ & X & _); congruence. }
    split; [|split; [|split; [|split; [|split; [|split]]]]]; auto.
    + eapply (Core_step g OK) with (io := io) (L := L) (D := D) (s := s) (pm := pm); eauto.
      * intros b Hb. rewrite EC, upd_other by lia. split; auto. right. apply ED. lia.
      * eapply ImapInv_dk; [| | |exact IV]; unfold s2; destruct buf as [[|]|]; reflexivity.
      * unfold s2. destruct buf as [[|]|]; cbn; unfold s1; now rewrite alloc_c.
      * intros b Hb. apply ED. intros ->. congruence.
      * intros b. unfold s2. destruct buf as [[|]|]; cbn; unfold s1; rewrite ?alloc_wr; auto.
        unfold upd. destruct (N.eqb_spec b nb) as [->|]; auto. intros _. right. split; auto. lia.
      * unfold s2. destruct buf as [[|]|]; cbn; unfold s1; now rewrite alloc_ro.
      * unfold s2. destruct buf as [[|]|]; cbn; unfold s1; now rewrite alloc_res.
      * rewrite EF, EA, EA1. specialize (Hrsv P0). lia.
      * rewrite EW. unfold s1. now rewrite alloc_freei.
      * apply (TreeG_move g OK) with (cu := cur s); auto; [exact (k_tree K)|]. intros b Hb. rewrite EC. unfold upd.
        destruct (N.eqb_spec b nb); auto. fold prev. rewrite P0. destruct (N.eqb_spec b 0); auto; lia.
      * eapply Rep_upd with (d := dk s) (D := D).
        -- apply K.
        -- intros j q Hq Hh _. apply ED. intros E. eapply FR; eauto.
        -- intros _ Hh. assert (buf = Some false) by (destruct buf as [[|]|]; auto; [destruct Hb1; auto|destruct Hb2; auto]).
           subst buf. exists 0, (fun _ => 0). split.
           { unfold s2. cbn. rewrite upd_same. destruct k; cbn in *; rewrite <- Hk; try reflexivity. lia. }
           intros k' Hk' _. symmetry. eapply (r_zero (k_rep K)); eauto.
        -- intros; congruence.
        -- intros _ q k' E Hh Hk'. rewrite (ppar_child _ _ _ E Hh) in Hpar. exact Hpar.
        -- now right.
        -- intros q Hq. left. now left.
      * destruct (k_lim0 K) as [B1 B2 B3]. constructor; auto.
        intros q. destruct (ptr_eqb_spec q p) as [->|]; auto. rewrite pupd_ptr by auto. auto.
      * intros j q Hj. now apply pupd_ino.
      * apply (brk_true g OK). unfold s2. destruct buf as [[|]|]; cbn; unfold s1, alloc_st; apply bset_br.
    + intros j q E. destruct (FR j q E).
    + intros Hb Hkd x. subst k. destruct buf as [[|]|]; [exfalso; now apply Hb1| |congruence].
      unfold s2. cbn. now rewrite upd_same.
    + cbn [orb]. lia.
    + lia.
    + intros b Hb. rewrite EC, upd_other; auto. lia.
  - destruct (Core_blk OK K P0) as (RP & CP & _). fold prev in RP, CP.
    assert (IR : ITAB g <= prev < BC g) by lia.
    unfold bind at 1. rewrite (RedImapBlockState_ok g prev s IR). rewrite CP.
    destruct (com s prev) eqn:CM.
    + (* committed: copy on write *)
      destruct Hfree as [[_ Hx]|Hfree]; [congruence|].
      destruct (RedImapAllocBlock_ok g s (k_imap K) Hfree) as (nb & Rnb & Cnb & Mnb & RUN & IV).
      set (s1 := alloc_st g nb s) in *.
      assert (N0 : nb <> 0) by lia. assert (NP : prev <> nb) by congruence.
      assert (ED1 : forall b, dk s1 b = dk s b) by (intros; unfold s1; now rewrite alloc_dk).
      destruct (get_kind_ok _ _ _ _ _ _ i0 p k K P0 Hk) as (v & GK & GD & GN). fold prev in GK, GD, GN.
      assert (GK1 : get_kind g k prev s1 = (Ok v, s1)).
      { revert GK. unfold get_kind. rewrite ED1. destruct k, (dk s prev); intros E; inversion E; auto; discriminate. }
      set (s2 := match buf with Some _ => dk_write nb v s1 | None => s1 end).
      assert (ES2 : cur s2 = cur s1 /\ s_c s2 = s_c s1 /\ s_w s2 = s_w s1 /\ s_afree s2 = s_afree s1 /\ s_ro s2 = s_ro s1 /\ s_res s2 = s_res s1).
      { unfold s2. destruct buf; repeat split; reflexivity. }
      destruct ES2 as (E1 & E2 & E3 & E4 & E5 & E6).
      assert (IV2 : ImapInv g s2) by (eapply ImapInv_dk; [| | |exact IV]; auto).
      assert (C2 : com s2 prev = true) by (unfold com; rewrite E2; unfold s1; rewrite alloc_c; exact CM).
      assert (CU2 : cur s2 prev = true) by (rewrite E1; unfold s1; rewrite alloc_cur, upd_other; auto).
      assert (BS2 : RedImapBlockSet g prev false s2 = (Ok tt, bset g prev false s2)).
      { apply RedImapBlockSet_ok; auto. congruence. }
      assert (IV3 : ImapInv g (bset g prev false s2)).
      { apply bset_inv; auto. congruence. }
      set (s3 := bset g prev false s2) in *.
      exists nb, s3. split.
      { unfold bind at 1. rewrite RUN. fold s1. unfold bind at 1.
        assert (X : ((match buf with None => ret tt | Some _ => v0 <- get_kind g k prev;; modify (dk_write nb v0) end);;;
                     RedImapBlockSet g prev false) s1 = (Ok tt, s3)).
        { unfold bind at 1. destruct buf; [|unfold ret; exact BS2]. unfold bind. rewrite GK1. exact BS2. }
        rewrite X. reflexivity. }
      split; auto. split; auto. split; auto.
      assert (EC : forall b, cur s3 b = if b =? nb then true else if b =? prev then false else cur s b).
      { intros b. unfold s3. rewrite bset_cur, E1. unfold s1. rewrite alloc_cur. unfold upd.
        destruct (N.eqb_spec b prev), (N.eqb_spec b nb); auto. congruence. }
      assert (DS3 : dk s3 = dk s2) by (unfold s3; rewrite bset_dk, C2; reflexivity).
      assert (ED : forall b, b <> nb -> dk s3 b = dk s b).
      { intros b Hb. rewrite DS3. unfold s2. destruct buf; cbn; rewrite ?upd_other by auto; auto. }
      assert (FR : forall j q, pm j q = nb -> False).
      { intros j q E. destruct (Core_blk OK (i:=j) (p:=q) K) as (_ & X & _); congruence. }
      assert (FAP : FA g <=? prev = true) by (apply N.leb_le; lia).
      assert (EF : m_free (s_w s3) = m_free (s_w s) - 1).
      { unfold s3. rewrite bset_free, FAP, C2, E3. unfold s1. rewrite alloc_free; auto. lia. }
      assert (EA : s_afree s3 = s_afree s + 1).
      { unfold s3. rewrite bset_afree, FAP, C2, E4. unfold s1, alloc_st. rewrite bset_afree.
        destruct (N.leb_spec (FA g) nb); [reflexivity|lia]. }
      split; [|split; [|split; [|split; [|split; [|split]]]]]; auto.
      * eapply (Core_step g OK) with (io := io) (L := L) (D := D) (s := s) (pm := pm); eauto.
        -- intros b Hb. rewrite EC. destruct (N.eqb_spec b nb), (N.eqb_spec b prev); try lia. split; auto.
        -- unfold s3. rewrite bset_c, E2. unfold s1. now rewrite alloc_c.
        -- intros b Hb. apply ED. intros ->. congruence.
        -- intros b. unfold s3. rewrite bset_wr, C2, orb_true_r. unfold s2. destruct buf; cbn; unfold s1; rewrite ?alloc_wr; auto.
           unfold upd. destruct (N.eqb_spec b nb) as [->|]; auto. intros _. right. split; auto. lia.
        -- unfold s3. rewrite bset_ro, E5. unfold s1. now rewrite alloc_ro.
        -- unfold s3. rewrite bset_res, E6. unfold s1. now rewrite alloc_res.
        -- rewrite EF, EA. pose proof (k_rsv K). lia.
        -- unfold s3. rewrite bset_freei, E3. unfold s1. now rewrite alloc_freei.
        -- apply (TreeG_move g OK) with (cu := cur s); auto; try exact (k_tree K).
        -- eapply Rep_upd with (d := dk s) (D := D).
           ++ apply K.
           ++ intros j q Hq Hh _. apply ED. intros E. eapply FR; eauto.
           ++ intros _ Hh. destruct (r_node (k_rep K) i0 p P0 Hh) as (o & e & E & HE).
              exists o, e. split.
              { rewrite DS3. unfold s2. destruct buf; [|destruct (Hb2 Hh); auto]. cbn. rewrite upd_same.
                rewrite GN by auto. exact E. }
              intros k' Hk' Hnd. apply HE; auto. intros [_ Hx]. apply Hnd. now left.
           ++ intros; congruence.
           ++ intros _ q k' E Hh Hk'. rewrite (ppar_child _ _ _ E Hh) in Hpar. exact Hpar.
           ++ now right.
           ++ intros q Hq. left. now left.
        -- destruct (k_lim0 K) as [B1 B2 B3]. constructor; auto.
           intros q. destruct (ptr_eqb_spec q p) as [->|]; auto. rewrite pupd_ptr by auto. auto.
        -- intros j q Hj. now apply pupd_ino.
        -- apply (brk_true g OK). unfold s3. apply bset_br.
      * intros j q E. destruct (FR j q E).
      * intros Hb _ x. rewrite DS3. unfold s2. destruct buf; [|congruence]. cbn. rewrite upd_same. now rewrite GD.
      * cbn [orb]. lia.
      * lia.
      * intros b Hb. rewrite EC. destruct (N.eqb_spec b nb), (N.eqb_spec b prev); auto; lia.
    + (* already new *)
      set (s2 := match buf with Some _ => dk_dirty prev s | None => s end).
      destruct (get_kind_ok _ _ _ _ _ _ i0 p k K P0 Hk) as (v & GK & _ & _). fold prev in GK.
      exists prev, s2. split.
      { unfold s2. destruct buf as [[|]|]; try reflexivity. unfold bind. rewrite GK. reflexivity. }
      assert (EQ : dk s2 = dk s /\ s_w s2 = s_w s /\ s_afree s2 = s_afree s /\ cur s2 = cur s).
      { unfold s2. destruct buf; repeat split; reflexivity. }
      destruct EQ as (E1 & E2 & E3 & E4).
      split; auto. split; auto. split; [lia|].
      split; [|split; [|split; [|split; [|split; [|split]]]]]; rewrite ?E1, ?E2, ?E3, ?E4; auto.
      * apply Core_ext with pm.
        { intros j q. destruct (N.eq_dec j i0) as [->|]; [|now rewrite pupd_ino].
          destruct (ptr_eqb_spec q p) as [->|]; [now rewrite pupd_same|now rewrite pupd_ptr]. }
        eapply (Core_D OK); [intros q Hq; left; exact Hq|]. unfold s2. destruct buf; auto. apply Core_dirty; auto.
      * intros j q E. assert (pm j q <> 0) by congruence.
        destruct (Core_inj OK (j:=i0) (q:=p) K H); auto.
      * cbn [orb]. lia.
      * lia.
Qed.

(** * Freeing the block of a slot *)
Lemma free_spec i0 io L pm (D D' : ptr -> Prop) s p :
  Core i0 io L pm D s -> pm i0 p <> 0 ->
  (0 < phgt g p -> forall k, k < PE g -> pm i0 (child p k) = 0) ->
  D' p -> (forall q, D q -> D' q \/ (0 < phgt g p /\ exists k, q = child p k)) ->
  exists s', RedImapBlockSet g (pm i0 p) false s = (Ok tt, s') /\
    Core i0 io L (pupd pm i0 p 0) D' s' /\
    (forall b, b <> pm i0 p -> dk s' b = dk s b) /\
    (forall b, b < FA g -> cur s' b = cur s b) /\
    s_c s' = s_c s /\
    m_free (s_w s) <= m_free (s_w s') /\
    m_free (s_w s') + s_afree s' = m_free (s_w s) + s_afree s + 1.
Proof.
  intros K P0 Hz HDp HD. destruct (Core_blk OK K P0) as (RP & CP & V & Lv).
  set (b := pm i0 p) in *. pose proof (ITAB_FA g OK) as IF.
  assert (FAP : FA g <=? b = true) by (apply N.leb_le; lia).
  exists (bset g b false s).
  assert (RUN : RedImapBlockSet g b false s = (Ok tt, bset g b false s)).
  { apply RedImapBlockSet_ok; auto; try congruence; try lia. apply K. }
  split; auto.
  assert (EF : m_free (s_w (bset g b false s)) + s_afree (bset g b false s) = m_free (s_w s) + s_afree s + 1).
  { rewrite bset_free, bset_afree, FAP. destruct (com s b); lia. }
  split; [|split; [|split; [|split; [|split]]]]; auto.
  - eapply (Core_step g OK) with (io := io) (L := L) (D := D) (s := s) (pm := pm); eauto.
    + intros x Hx. rewrite bset_cur, upd_other by lia. split; auto. right. apply bset_dk_other. lia.
    + apply bset_inv; auto; try congruence; try lia. apply K.
    + apply bset_c.
    + intros x Hx. rewrite bset_dk. destruct (com s b) eqn:E; auto. cbn. apply upd_other. congruence.
    + intros x Hx. destruct (bset_wr_in g _ _ _ _ Hx) as [|[-> E]]; auto. right. split; auto. lia.
    + apply bset_ro.
    + apply bset_res.
    + rewrite EF. pose proof (k_rsv K). lia.
    + apply bset_freei.
    + eapply (TreeG_clear g OK); [apply K|]. intros x Hx. rewrite bset_cur. reflexivity.
    + eapply Rep_upd with (d := dk s) (D := D); eauto; try (intros; congruence).
      * apply K.
      * intros j q Hq Hh Hne. apply bset_dk_other. intros E.
        destruct (Core_inj OK K Hq E). destruct Hne; congruence.
      * intros q Hq. destruct (HD q Hq) as [|[? ?]]; auto.
    + destruct (k_lim0 K) as [B1 B2 B3]. constructor; auto.
      intros q. destruct (ptr_eqb_spec q p) as [->|]; [rewrite pupd_same; congruence|]. rewrite pupd_ptr by auto. auto.
    + intros j q Hj. now apply pupd_ino.
    + apply (brk_true g OK). apply bset_br.
  - intros x Hx. now apply bset_dk_other.
  - intros x Hx. rewrite bset_cur, upd_other; auto. lia.
  - apply bset_c.
  - rewrite bset_free, FAP. destruct (com s b); lia.
Qed.
End Step.
