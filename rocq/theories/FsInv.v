(** The structural invariant of the volume, and how elementary state changes preserve it. *)
From Verif Require Import Base Count FsState FsImap FsInode FsTree FsImapProof.
Ltac Zify.zify_post_hook ::= idtac.

Section Inv.
Variable g : cfg.
Hypothesis OK : cfg_ok g.
Set Default Proof Using "OK".
(** * Inode slots *)
(** Is inode number i in use in the working state? *)
Definition lv (s : st) (i : N) : bool :=
  INODE_IS_VALID g i && (cur s (InodeBlock g i 0) || cur s (InodeBlock g i 1)).
(** The inode contents in the working state. *)
Definition T (s : st) (i : N) : option inode :=
  if INODE_IS_VALID g i then
    if cur s (InodeBlock g i 0) then match dk s (InodeBlock g i 0) with BInode io => Some io | _ => None end
    else if cur s (InodeBlock g i 1) then match dk s (InodeBlock g i 1) with BInode io => Some io | _ => None end
    else None
  else None.
(** ... where the inode [i0] being worked on has contents [io]. *)
Definition view (s : st) (i0 : N) (io : inode) (j : N) : option inode := if j =? i0 then Some io else T s j.

Lemma valid_iff i : INODE_IS_VALID g i = true <-> 2 <= i < 2 + ICNT g.
Proof. unfold INODE_IS_VALID, INODE_FIRST_VALID. rewrite andb_true_iff, N.leb_le, N.ltb_lt. lia. Qed.
Lemma slot_rng i w : INODE_IS_VALID g i = true -> w <= 1 -> ITAB g <= InodeBlock g i w < FA g.
Proof. rewrite valid_iff. unfold InodeBlock, FA, INODE_FIRST_VALID. lia. Qed.
Lemma slot_inj i w j v : INODE_IS_VALID g i = true -> INODE_IS_VALID g j = true -> w <= 1 -> v <= 1 ->
  InodeBlock g i w = InodeBlock g j v -> i = j /\ w = v.
Proof. rewrite !valid_iff. unfold InodeBlock, INODE_FIRST_VALID. lia. Qed.
Lemma FA_BC : FA g <= BC g. Proof. apply OK. Qed.
Lemma FA_pos : 3 <= FA g. Proof. unfold FA. pose proof (ok_ITAB g OK). lia. Qed.
Lemma ITAB_FA : ITAB g <= FA g. Proof. unfold FA. lia. Qed.

Lemma T_lv s i io : T s i = Some io -> lv s i = true.
Proof.
  unfold T, lv. destruct (INODE_IS_VALID g i); [|discriminate]. cbn [andb].
  destruct (cur s (InodeBlock g i 0)); auto. destruct (cur s (InodeBlock g i 1)); auto. discriminate.
Qed.
Lemma lv_valid s i : lv s i = true -> INODE_IS_VALID g i = true.
Proof. unfold lv. now destruct (INODE_IS_VALID g i). Qed.

(** Agreement of two states below the first allocable block, except for the slots of inode [i0]. *)
Definition isslot (i0 b : N) : Prop := INODE_IS_VALID g i0 = true /\ exists w, w <= 1 /\ b = InodeBlock g i0 w.
Definition lows (i0 : N) (s s' : st) : Prop :=
  forall b, b < FA g -> cur s' b = cur s b /\ (isslot i0 b \/ dk s' b = dk s b).
Lemma lows_refl i0 s : lows i0 s s. Proof. intros b; auto. Qed.
Lemma lows_trans i0 s1 s2 s3 : lows i0 s1 s2 -> lows i0 s2 s3 -> lows i0 s1 s3.
Proof. intros H1 H2 b Hb. destruct (H1 b Hb) as [? [?|?]], (H2 b Hb) as [? [?|?]]; split; auto; try congruence. right; congruence. Qed.
Lemma lows_lv i0 s s' i : lows i0 s s' -> lv s' i = lv s i.
Proof.
  intros H. unfold lv. destruct (INODE_IS_VALID g i) eqn:V; auto. cbn [andb].
  destruct (H (InodeBlock g i 0)), (H (InodeBlock g i 1)); try (apply slot_rng; auto; lia). congruence.
Qed.
Lemma lows_T i0 s s' i : lows i0 s s' -> i <> i0 -> T s' i = T s i.
Proof.
  intros H Hi. unfold T. destruct (INODE_IS_VALID g i) eqn:V; auto.
  assert (NS : forall w, w <= 1 -> ~ isslot i0 (InodeBlock g i w)).
  { intros w Hw (V0 & v & Hv & E). apply Hi. exact (proj1 (slot_inj _ _ _ _ V V0 Hw Hv E)). }
  destruct (H (InodeBlock g i 0)) as [-> [X| ->]]; [apply slot_rng; auto; lia|destruct (NS 0); auto; lia|].
  destruct (H (InodeBlock g i 1)) as [-> [X| ->]]; [apply slot_rng; auto; lia|destruct (NS 1); auto; lia|]. reflexivity.
Qed.
Lemma lows_view i0 s s' io i : lows i0 s s' -> view s' i0 io i = view s i0 io i.
Proof. intros H. unfold view. destruct (N.eqb_spec i i0); auto. eapply lows_T; eauto. Qed.

(** * Ownership of blocks: a pointer map and the allocation bits *)
Record TreeG (pm : pmap) (lvf : N -> bool) (cu : N -> bool) : Prop := {
  t_dom : forall i p, pm i p <> 0 -> lvf i = true /\ vptr g p;
  t_rng : forall i p, pm i p <> 0 -> FA g <= pm i p < BC g /\ cu (pm i p) = true;
  t_inj : forall i p j q, pm i p <> 0 -> pm i p = pm j q -> i = j /\ p = q;
  t_onto : forall b, FA g <= b < BC g -> cu b = true -> exists i p, pm i p = b }.

Definition mknode (h o : N) (e : N -> N) : blk := if h =? 2 then BDindir o e else BIndir o e.

(** * The disk represents the pointer map.  [D]: slots of inode [i0] that are out of sync. *)
Record Rep (d : N -> blk) (vw : N -> option inode) (i0 : N) (D : ptr -> Prop) (pm : pmap) : Prop := {
  r_ino : forall j io e, vw j = Some io -> e < IE g -> ~ (j = i0 /\ D (P1 e)) -> i_ent io e = pm j (P1 e);
  r_node : forall j p, pm j p <> 0 -> 0 < phgt g p ->
    exists o e, d (pm j p) = mknode (phgt g p) o e /\
      forall k, k < PE g -> ~ (j = i0 /\ D (child p k)) -> e k = pm j (child p k);
  r_zero : forall j p k, pm j p = 0 -> 0 < phgt g p -> k < PE g -> pm j (child p k) = 0 }.

(** * Sizes and block counts *)
Definition nblk (pm : pmap) (j : N) : N := count (fun l => negb (pm j (pT g l) =? 0)) 0 (INODE_DATA_BLOCKS g).
Record Lim (pm : pmap) (j : N) (io : inode) (L : N) : Prop := {
  f_lim : forall p, pm j p <> 0 -> lfirst g p * BS g < L;
  f_size : i_size io <= L;
  f_max : L <= INODE_SIZE_MAX g }.

(** Moving (or creating) the block of one slot. *)
Lemma TreeG_move pm f cu i p nb cu' :
  TreeG pm f cu -> f i = true -> vptr g p -> FA g <= nb < BC g -> cu nb = false ->
  (forall b, FA g <= b < BC g -> cu' b = if b =? nb then true else if b =? pm i p then false else cu b) ->
  TreeG (pupd pm i p nb) f cu'.
Proof.
  intros [T1 T2 T3 T4] Hi Hp Hnb Hc HC. pose proof FA_pos as FP.
  assert (NN : forall j q, pm j q <> nb).
  { intros j q E. assert (pm j q <> 0) by lia. destruct (T2 j q H) as [_ X]. congruence. }
  assert (PC : forall j q, (j <> i \/ q <> p) -> pm j q <> 0 -> pm j q <> pm i p).
  { intros j q D0' H E. destruct (T3 _ _ _ _ H E). destruct D0'; congruence. }
  assert (DEC : forall j q, (j = i /\ q = p) \/ (j <> i \/ q <> p)).
  { intros. destruct (N.eq_dec j i), (ptr_eqb_spec q p); auto. }
  constructor.
  - intros j q. destruct (DEC j q) as [[-> ->]|Dj]; [auto|]. rewrite pupd_other by auto. auto.
  - intros j q. destruct (DEC j q) as [[-> ->]|Dj].
    + rewrite pupd_same. intros _. split; auto. rewrite HC, N.eqb_refl; auto.
    + rewrite pupd_other by auto. intros H. destruct (T2 j q H) as [R C]. split; auto.
      rewrite HC by auto. destruct (N.eqb_spec (pm j q) nb); auto.
      destruct (N.eqb_spec (pm j q) (pm i p)); auto. destruct (PC j q Dj H); auto.
  - intros j q j' q'. destruct (DEC j q) as [[-> ->]|Dj], (DEC j' q') as [[-> ->]|Dj']; auto.
    + rewrite pupd_same, pupd_other by auto. intros _ E. symmetry in E. destruct (NN _ _ E).
    + rewrite pupd_same, pupd_other by auto. intros _ E. destruct (NN _ _ E).
    + rewrite !pupd_other by auto. auto.
  - intros b Hb. rewrite HC by auto. destruct (N.eqb_spec b nb) as [->|Hn].
    + intros _. exists i, p. apply pupd_same.
    + destruct (N.eqb_spec b (pm i p)); [discriminate|]. intros Hcu.
      destruct (T4 b Hb Hcu) as (j & q & E). exists j, q. rewrite pupd_other; auto.
      destruct (DEC j q) as [[-> ->]|]; auto; congruence.
Qed.

(** Clearing one slot and freeing its block. *)
Lemma TreeG_clear pm f cu i p cu' :
  TreeG pm f cu ->
  (forall b, FA g <= b < BC g -> cu' b = if b =? pm i p then false else cu b) ->
  TreeG (pupd pm i p 0) f cu'.
Proof.
  intros [T1 T2 T3 T4] HC. pose proof FA_pos as FP.
  assert (PC : forall j q, (j <> i \/ q <> p) -> pm j q <> 0 -> pm j q <> pm i p).
  { intros j q D0' H E. destruct (T3 _ _ _ _ H E). destruct D0'; congruence. }
  assert (DEC : forall j q, (j = i /\ q = p) \/ (j <> i \/ q <> p)).
  { intros. destruct (N.eq_dec j i), (ptr_eqb_spec q p); auto. }
  constructor.
  - intros j q. destruct (DEC j q) as [[-> ->]|Dj]; [rewrite pupd_same; congruence|]. rewrite pupd_other by auto. auto.
  - intros j q. destruct (DEC j q) as [[-> ->]|Dj].
    + rewrite pupd_same. congruence.
    + rewrite pupd_other by auto. intros H. destruct (T2 j q H) as [R C]. split; auto.
      rewrite HC by auto. destruct (N.eqb_spec (pm j q) (pm i p)); auto. destruct (PC j q Dj H); auto.
  - intros j q j' q'. destruct (DEC j q) as [[-> ->]|Dj], (DEC j' q') as [[-> ->]|Dj']; auto.
    + rewrite pupd_same. congruence.
    + rewrite pupd_same, pupd_other by auto. intros ? E. congruence.
    + rewrite !pupd_other by auto. auto.
  - intros b Hb. rewrite HC by auto.
    destruct (N.eqb_spec b (pm i p)); [discriminate|]. intros Hcu.
    destruct (T4 b Hb Hcu) as (j & q & E). exists j, q. rewrite pupd_other; auto.
    destruct (DEC j q) as [[-> ->]|]; auto; congruence.
Qed.

Lemma TreeG_cur pm f cu cu' :
  TreeG pm f cu -> (forall b, FA g <= b < BC g -> cu' b = cu b) -> TreeG pm f cu'.
Proof.
  intros [T1 T2 T3 T4] HC. constructor; auto.
  - intros i p H. destruct (T2 i p H). rewrite HC; auto.
  - intros b Hb. rewrite HC; auto.
Qed.

(** Number of data blocks after changing a slot. *)
Lemma nblk_node pm i p v j : 0 < phgt g p -> nblk (pupd pm i p v) j = nblk pm j.
Proof.
  intros H. apply count_ext. intros l Hl. rewrite pupd_ptr; auto.
  intros E. pose proof (pT_phgt g OK l). rewrite E in H0. lia.
Qed.
Lemma nblk_data pm i l v : l < INODE_DATA_BLOCKS g ->
  nblk (pupd pm i (pT g l) v) i + (if pm i (pT g l) =? 0 then 0 else 1) = nblk pm i + (if v =? 0 then 0 else 1).
Proof.
  intros Hl.
  pose proof (count_change_in (fun m => negb (pupd pm i (pT g l) v i (pT g m) =? 0)) (fun m => negb (pm i (pT g m) =? 0))
     0 (INODE_DATA_BLOCKS g) l (conj (N.le_0_l l) Hl)) as C.
  cbv beta in C. rewrite pupd_same in C. unfold nblk.
  destruct (pm i (pT g l) =? 0), (v =? 0); cbn [negb] in C; apply C; intros m Hm Hn;
    rewrite pupd_ptr; auto; intros E; apply Hn; apply (pT_inj g OK); auto; lia.
Qed.
Lemma nblk_pos pm i l : l < INODE_DATA_BLOCKS g -> pm i (pT g l) <> 0 -> 0 < nblk pm i.
Proof. intros. apply count_pos with l; [lia|]. destruct (N.eqb_spec (pm i (pT g l)) 0); auto. Qed.
Lemma nblk_lt pm i l : l < INODE_DATA_BLOCKS g -> pm i (pT g l) = 0 -> nblk pm i < INODE_DATA_BLOCKS g.
Proof.
  intros H E. apply N.lt_le_trans with (INODE_DATA_BLOCKS g - 0); [|lia]. apply count_lt with l; [lia|]. now rewrite E.
Qed.

(** m_free + s_afree counts the blocks that are free in the working state. *)
Lemma free_total s : ImapInv g s -> m_free (s_w s) + s_afree s = count (fun b => negb (cur s b)) (FA g) (BC g).
Proof.
  intros [H1 H2 _]. rewrite H1, H2. unfold count. clear H1 H2. generalize (N.to_nat (BC g - FA g)). intros n.
  generalize (FA g). induction n; intros a; cbn [cnt]; auto. rewrite <- (IHn (a + 1)). unfold free_blk, afree_blk.
  destruct (cur s a), (com s a); cbn [negb andb]; lia.
Qed.
(** committed metaroot, disk contents at the last transaction point, use of the reserve *)
Variable C0 : mroot.
Variable D0 : N -> blk.
Variable R0 : bool.

(** A step after which the volume is still not branched has not changed anything. *)
Definition brk (s s' : st) : Prop := s_br s' = false ->
  s_br s = false /\ s_w s' = s_w s /\ (forall b, dk s' b = dk s b) /\ (forall b, s_wr s' b = s_wr s b).
Lemma brk_true s s' : s_br s' = true -> brk s s'.
Proof. unfold brk. congruence. Qed.
Lemma brk_refl s : brk s s.
Proof. unfold brk. auto. Qed.

Record Core (i0 : N) (io : inode) (L : N) (pm : pmap) (D : ptr -> Prop) (s : st) : Prop := {
  k_imap : ImapInv g s;
  k_c : s_c s = C0;
  k_frame : forall b, com s b = true -> dk s b = D0 b;
  k_wr : forall b, s_wr s b = true -> com s b = false /\ ITAB g <= b < BC g;
  k_ro : s_ro s = false;
  k_res : s_res s = R0;
  k_rsv : N.min (RESV g) (NALLOC g) <= m_free (s_w s) + s_afree s;
  k_slot : forall i, INODE_IS_VALID g i = true ->
     cur s (InodeBlock g i 0) && cur s (InodeBlock g i 1) = false /\
     com s (InodeBlock g i 0) && com s (InodeBlock g i 1) = false;
  k_ino : forall j, lv s j = true -> j <> i0 -> exists x, T s j = Some x;
  k_freei : m_freei (s_w s) = count (fun i => negb (lv s i)) 2 (2 + ICNT g);
  k_tree : TreeG pm (lv s) (cur s);
  k_rep : Rep (dk s) (view s i0 io) i0 D pm;
  k_lim0 : Lim pm i0 io L;
  k_fit : forall j x, T s j = Some x -> j <> i0 -> Lim pm j x (i_size x) /\ i_blocks x = nblk pm j;
  k_br : s_br s = false -> s_w s = s_c s /\ (forall b, dk s b = D0 b) /\ (forall b, s_wr s b = false) }.

(** Rebuilding the invariant after a change that leaves the allocation of the inode table alone. *)
Lemma Core_step i0 io io' L L' pm pm' D D' s s' :
  Core i0 io L pm D s -> lows i0 s s' ->
  ImapInv g s' -> s_c s' = s_c s ->
  (forall b, com s b = true -> dk s' b = dk s b) ->
  (forall b, s_wr s' b = true -> s_wr s b = true \/ com s b = false /\ ITAB g <= b < BC g) ->
  s_ro s' = s_ro s -> s_res s' = s_res s ->
  N.min (RESV g) (NALLOC g) <= m_free (s_w s') + s_afree s' ->
  m_freei (s_w s') = m_freei (s_w s) ->
  TreeG pm' (lv s) (cur s') ->
  Rep (dk s') (view s i0 io') i0 D' pm' ->
  Lim pm' i0 io' L' ->
  (forall j p, j <> i0 -> pm' j p = pm j p) ->
  brk s s' ->
  Core i0 io' L' pm' D' s'.
Proof.
  intros [K1 K2 K3 K4 K5 K6 K7 K8 K9 K10 K11 K12 K13 K14 K15] LS HI HC HF HW HR HS HV HE HT HP HFit HO HB.
  assert (Cm : forall b, com s' b = com s b) by (intros; unfold com; congruence).
  assert (Lv : forall i, lv s' i = lv s i) by (intros; eapply lows_lv; eauto).
  constructor; auto; try congruence.
  - intros b Hb. rewrite Cm in Hb. rewrite HF; auto.
  - intros b Hb. rewrite Cm. destruct (HW b Hb) as [?|?]; auto.
  - intros i V. rewrite !Cm. destruct (LS (InodeBlock g i 0)) as [-> _]; [apply slot_rng; auto; lia|].
    destruct (LS (InodeBlock g i 1)) as [-> _]; [apply slot_rng; auto; lia|]. auto.
  - intros j Hj Hn. rewrite (lows_T i0 s s') by auto. rewrite Lv in Hj. auto.
  - rewrite HE, K10. apply count_ext. intros; now rewrite Lv.
  - destruct HT as [A1 A2 A3 A4]. constructor; auto. intros i p Hp. rewrite Lv. auto.
  - destruct HP as [A1 A2 A3]. constructor; auto. intros j x e Hj. rewrite (lows_view i0 s s') in Hj; eauto.
  - intros j x Hj Hn. rewrite (lows_T i0 s s') in Hj by auto. destruct (K14 j x Hj Hn) as [[B2 B3 B4] B1].
    split; [constructor; auto|].
    + intros p Hp. rewrite HO in Hp by auto. auto.
    + rewrite B1. apply count_ext. intros. now rewrite HO.
  - intros H. destruct (HB H) as (X1 & X2 & X3 & X4). destruct (K15 X1) as (Y1 & Y2 & Y3).
    split; [congruence|]. split; intros b; [now rewrite X3|now rewrite X4].
Qed.

(** Enlarging the set of out-of-sync slots, changing the virtual end. *)
Lemma Core_D i0 io L pm (D D' : ptr -> Prop) s : (forall p, D p -> D' p) -> Core i0 io L pm D s -> Core i0 io L pm D' s.
Proof.
  intros H [K1 K2 K3 K4 K5 K6 K7 K8 K9 K10 K11 [A1 A2 A3] K13 K14 K15]. constructor; auto. constructor; auto.
  - intros j x e Hv He Hd. apply A1; auto. intros [E Hx]. apply Hd; auto.
  - intros j p Hp Hh. destruct (A2 j p Hp Hh) as (o & e & E & HE). exists o, e. split; auto.
    intros k Hk Hd. apply HE; auto. intros [E' Hx]. apply Hd; auto.
Qed.
Lemma Core_L i0 io L L' pm D s : L <= L' -> L' <= INODE_SIZE_MAX g -> Core i0 io L pm D s -> Core i0 io L' pm D s.
Proof.
  intros H1 H2 [K1 K2 K3 K4 K5 K6 K7 K8 K9 K10 K11 A [B1 B2 B3] K14 K15]. constructor; auto. constructor; auto.
  - intros p Hp. specialize (B1 p Hp). lia.
  - lia.
Qed.

(** Changing fields of the inode other than its entries. *)
Lemma Core_io i0 io io' L L' pm D s : (forall e, e < IE g -> i_ent io' e = i_ent io e) -> Lim pm i0 io' L' ->
  Core i0 io L pm D s -> Core i0 io' L' pm D s.
Proof.
  intros H1 H2 [K1 K2 K3 K4 K5 K6 K7 K8 K9 K10 K11 [A1 A2 A3] B K14 K15]. constructor; auto. constructor; auto.
  intros j x e. unfold view. destruct (N.eqb_spec j i0).
  - intros E; injection E as <-. intros. subst j. rewrite H1; auto. apply A1; auto. unfold view. now rewrite N.eqb_refl.
  - intros. apply A1; auto. unfold view. destruct (N.eqb_spec j i0); congruence.
Qed.

(** * Facts *)
Lemma Core_blk i0 io L pm D s i p : Core i0 io L pm D s -> pm i p <> 0 ->
  FA g <= pm i p < BC g /\ cur s (pm i p) = true /\ vptr g p /\ lv s i = true.
Proof.
  intros K H. destruct (t_rng _ _ _ (k_tree _ _ _ _ _ _ K) _ _ H), (t_dom _ _ _ (k_tree _ _ _ _ _ _ K) _ _ H). auto.
Qed.
Lemma Core_inj i0 io L pm D s i p j q : Core i0 io L pm D s -> pm i p <> 0 -> pm i p = pm j q -> i = j /\ p = q.
Proof. intros K. apply (t_inj _ _ _ (k_tree _ _ _ _ _ _ K)). Qed.

Lemma Core_new i0 io L pm D s b : Core i0 io L pm D s -> cur s b = true -> com s b = false -> s_br s = true.
Proof.
  intros K H1 H2. destruct (s_br s) eqn:E; auto. destruct (k_br _ _ _ _ _ _ K E) as (X & _). unfold cur, com in *. congruence.
Qed.
End Inv.

Arguments k_imap {g C0 D0 R0 i0 io L pm D s} _.
Arguments k_c {g C0 D0 R0 i0 io L pm D s} _.
Arguments k_frame {g C0 D0 R0 i0 io L pm D s} _.
Arguments k_wr {g C0 D0 R0 i0 io L pm D s} _.
Arguments k_ro {g C0 D0 R0 i0 io L pm D s} _.
Arguments k_res {g C0 D0 R0 i0 io L pm D s} _.
Arguments k_rsv {g C0 D0 R0 i0 io L pm D s} _.
Arguments k_slot {g C0 D0 R0 i0 io L pm D s} _.
Arguments k_ino {g C0 D0 R0 i0 io L pm D s} _.
Arguments k_freei {g C0 D0 R0 i0 io L pm D s} _.
Arguments k_tree {g C0 D0 R0 i0 io L pm D s} _.
Arguments k_rep {g C0 D0 R0 i0 io L pm D s} _.
Arguments k_lim0 {g C0 D0 R0 i0 io L pm D s} _.
Arguments k_br {g C0 D0 R0 i0 io L pm D s} _.
Arguments Core_new {g} OK {C0 D0 R0 i0 io L pm D s b} _ _ _.
Arguments k_fit {g C0 D0 R0 i0 io L pm D s} _.
Arguments r_ino {g d vw i0 D pm} _.
Arguments r_node {g d vw i0 D pm} _.
Arguments r_zero {g d vw i0 D pm} _.
Arguments t_dom {g pm lvf cu} _.
Arguments t_rng {g pm lvf cu} _.
Arguments t_inj {g pm lvf cu} _.
Arguments t_onto {g pm lvf cu} _.
Arguments f_lim {g pm j io L} _.
Arguments f_size {g pm j io L} _.
Arguments f_max {g pm j io L} _.
Arguments Core_blk {g} OK {C0 D0 R0 i0 io L pm D s i p} _ _.
Arguments Core_inj {g} OK {C0 D0 R0 i0 io L pm D s i p j q} _ _ _.
Arguments Core_D {g} OK {C0 D0 R0 i0 io L pm D D' s} _ _.
Arguments Core_L {g} OK {C0 D0 R0 i0 io L L' pm D s} _ _ _.
Arguments Core_io {g} OK {C0 D0 R0 i0 io io' L L' pm D s} _ _ _.
