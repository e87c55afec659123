(** Branching (copy on write) of the path to a block. *)
From Verif Require Import Base Count FsState FsImap FsInode FsData FsTree FsImapProof FsWp FsInv FsStep FsSeek.
Ltac Zify.zify_post_hook ::= idtac.

(** split conjunctions only *)
Ltac sp := repeat match goal with |- _ /\ _ => split end.
Definition Dnone : ptr -> Prop := fun _ => False.

Section Branch.
Variable g : cfg.
Hypothesis OK : cfg_ok g.
Set Default Proof Using "OK".

(** contents of logical block m of inode j *)
Definition blkc (pm : pmap) (s : st) (j m x : N) : N :=
  if pm j (pT g m) =? 0 then 0 else data_of g (dk s (pm j (pT g m))) x.

(** fields of the inode that the data code leaves alone *)
Definition meta_same (a b : inode) : Prop :=
  i_size b = i_size a /\ i_dir b = i_dir a /\ i_nlink b = i_nlink a /\ i_pinode b = i_pinode a.
Lemma meta_refl a : meta_same a a. Proof. repeat split. Qed.
Lemma meta_trans a b c : meta_same a b -> meta_same b c -> meta_same a c.
Proof. unfold meta_same; intuition congruence. Qed.
(** the part of the inode structure that identifies the mounted inode *)
Definition cid (c c' : cin) : Prop :=
  c_ino c' = c_ino c /\ c_mnt c' = c_mnt c /\ c_blk c' = c_blk c /\ c_br c' = c_br c /\
  c_dirty c' = c_dirty c /\ c_dir c' = c_dir c.
Lemma cid_refl c : cid c c. Proof. repeat split. Qed.
Lemma cid_trans a b c : cid a b -> cid b c -> cid a c.
Proof. unfold cid; intuition congruence. Qed.
Lemma csame_cid a b : csame a b -> cid a b /\ c_i b = c_i a.
Proof. unfold csame, cid; intuition. Qed.

(** Effect of branching the path to block l of inode i. *)
Record BB (i l : N) (pm : pmap) (s : st) (pm' : pmap) (s' : st) : Prop := {
  bb_pm : forall j q, (j <> i \/ (q <> pD g l /\ q <> pI g l /\ q <> pT g l)) -> pm' j q = pm j q;
  bb_nz : forall j q, pm j q <> 0 -> pm' j q <> 0;
  bb_dk : forall j m, m < INODE_DATA_BLOCKS g -> (j <> i \/ m <> l) -> pm j (pT g m) <> 0 ->
            dk s' (pm j (pT g m)) = dk s (pm j (pT g m));
  bb_low : lows g i s s';
  bb_free : m_free (s_w s') <= m_free (s_w s) }.

Lemma pD_phgt l : l < INODE_DATA_BLOCKS g -> co_de g l <> None -> phgt g (pD g l) = 2 /\ vptr g (pD g l).
Proof.
  intros H Hn. destruct (co_cases g OK l H) as [? ? ? ? ? ? ?|? ? ? ? ? ? ? ? ? ? ?|? ? ? ? ? ? ? ? ? ? ? ? ?];
    try congruence. unfold pD. cbn. split; auto. lia.
Qed.
Lemma pI_phgt l : l < INODE_DATA_BLOCKS g -> co_ie g l <> None -> phgt g (pI g l) = 1 /\ vptr g (pI g l).
Proof.
  intros H Hn. pose proof (ok_IE g OK).
  destruct (co_cases g OK l H) as [? ? ? ? ? ? ?|? ? ? ? ? ? ? ? ? E ?|? ? ? ? ? ? ? ? ? ? ? E ?];
    try congruence; rewrite E; cbn; split; auto; try lia. 
Qed.

(** limits of the slots on the path *)
Lemma path_first l : l < INODE_DATA_BLOCKS g -> lfirst g (pD g l) <= l /\ lfirst g (pI g l) <= l.
Proof.
  intros H. unfold pD. cbn [lfirst].
  destruct (co_cases g OK l H) as [? ? ? ? ? ? ?|? ? ? ? Hh ? ? ? ? E ?|? ? ? ? ? ? Hh ? ? ? ? E ?].
  - unfold pI. rewrite H2. cbn [lfirst]. lia.
  - rewrite E. cbn [lfirst]. lia.
  - rewrite E. cbn [lfirst]. rewrite Hh. change (2 =? 2) with true. cbn iota. lia.
Qed.

Lemma BB_refl i l pm s : BB i l pm s pm s.
Proof. constructor; auto; try lia. apply (lows_refl g OK). Qed.
Lemma pT_ne_node i l pm s pm' s' : l < INODE_DATA_BLOCKS g -> BB i l pm s pm' s' ->
  forall j m, m < INODE_DATA_BLOCKS g -> (j <> i \/ m <> l) -> pm' j (pT g m) = pm j (pT g m).
Proof.
  intros Hl B j m Hm Hn. apply (bb_pm _ _ _ _ _ _ B). destruct Hn as [|Hn]; auto. right.
  assert (pT g m <> pT g l) by (intros E; apply Hn; now apply (pT_inj g OK)).
  pose proof (pT_phgt g OK m Hm) as P. split; [|split]; auto.
  - destruct (co_de g l) eqn:E.
    + destruct (pD_phgt l Hl) as [X _]; [congruence|]. intros E'. rewrite E' in P. lia.
    + destruct (co_ie g l) eqn:E2.
      * destruct (pI_phgt l Hl) as [X _]; [congruence|]. unfold pI in X. rewrite E in X. unfold pD.
        intros E'. rewrite E' in P. lia.
      * intros E'. apply H. rewrite E'. unfold pD, pT. now rewrite E2.
  - destruct (co_ie g l) eqn:E2.
    + destruct (pI_phgt l Hl) as [X _]; [congruence|]. intros E'. rewrite E' in P. lia.
    + intros E'. apply H. rewrite E'. unfold pI, pT. rewrite E2.
      destruct (co_cases g OK l Hl) as [? ? Ed ? ? ? ?|? ? ? ? ? ? ? ? ? ? ?|? ? ? ? ? ? ? ? ? ? ? ? ?]; try congruence. now rewrite Ed.
Qed.
Lemma BB_trans i l pm s pm1 s1 pm2 s2 : l < INODE_DATA_BLOCKS g ->
  BB i l pm s pm1 s1 -> BB i l pm1 s1 pm2 s2 -> BB i l pm s pm2 s2.
Proof.
  intros Hl A B. pose proof (pT_ne_node _ _ _ _ _ _ Hl A) as TA.
  destruct A as [A1 A2 A3 A4 A5], B as [B1 B2 B3 B4 B5]. constructor.
  - intros. rewrite B1, A1; auto.
  - auto.
  - intros j m Hm Hn Hp. rewrite <- A3 by auto. rewrite <- (TA j m) by auto. apply B3; auto.
  - eapply (lows_trans g OK); eauto.
  - lia.
Qed.
(** the blocks other than l keep their contents *)
Lemma BB_blkc i l pm s pm' s' : l < INODE_DATA_BLOCKS g -> BB i l pm s pm' s' ->
  forall j m x, m < INODE_DATA_BLOCKS g -> (j <> i \/ m <> l) -> blkc pm' s' j m x = blkc pm s j m x.
Proof.
  intros Hl B j m x Hm Hn. unfold blkc. rewrite (pT_ne_node _ _ _ _ _ _ Hl B) by auto.
  destruct (N.eqb_spec (pm j (pT g m)) 0); auto. now rewrite (bb_dk _ _ _ _ _ _ B) by auto.
Qed.

Definition need (s : st) (b : N) : N := if (b =? 0) || com s b then 1 else 0.

Variable C0 : mroot.
Variable D0 : N -> blk.
Variable R0 : bool.
Notation Core := (Core g C0 D0 R0).

Lemma com_same i0 io L pm D s i0' io' L' pm' D' s' b :
  Core i0 io L pm D s -> Core i0' io' L' pm' D' s' -> com s' b = com s b.
Proof. intros K K'. unfold com. now rewrite (k_c K), (k_c K'). Qed.

Lemma is_new_spec i0 io L pm D s i p : Core i0 io L pm D s ->
  is_new g (pm i p) s = (Ok (negb (need s (pm i p) =? 1)), s).
Proof.
  intros K. unfold is_new, need. destruct (N.eqb_spec (pm i p) 0) as [E|E].
  - reflexivity.
  - destruct (Core_blk OK K E) as (R & Cu & _). pose proof (ITAB_FA g OK).
    unfold bind. rewrite RedImapBlockState_ok by lia. rewrite Cu. cbn [orb].
    destruct (com s (pm i p)); reflexivity.
Qed.

Definition dcost (s : st) (c : cin) : N := match c_de c with Some _ => need s (c_db c) | None => 0 end.
Definition icost (s : st) (c : cin) (depth : bdepth) : N :=
  match c_ie c, depth with Some _, BD_INDIR | Some _, BD_DATA => need s (c_ib c) | _, _ => 0 end.
Definition tcost (s : st) (c : cin) (depth : bdepth) : N :=
  match depth with BD_DATA => need s (c_dat c) | _ => 0 end.

Lemma BranchBlockCost_spec L pm D s c l depth :
  Core (c_ino c) (c_i c) L pm D s -> CM g s c -> CS g pm c l ->
  BranchBlockCost g depth (s, c) = (Ok (dcost s c + icost s c depth + tcost s c depth), (s, c)).
Proof.
  intros K M S. unfold BranchBlockCost. unfold bind at 1, getc at 1. cbn [snd].
  rewrite (CM_mounted g OK _ _ M), (s_ini _ _ _ _ S). cbn [negb orb].
  destruct (s_at _ _ _ _ S) as (A1 & A2 & A3 & A4). rewrite (s_l _ _ _ _ S) in *.
  assert (Nd : forall b, need s b <= 1) by (intros; unfold need; destruct (_ || _); lia).
  assert (HD : c_de c <> None -> DINDIR_POINTERS g > 0).
  { intros Hn. rewrite A3 in Hn. unfold DINDIR_POINTERS. 
    destruct (co_cases g OK l A1) as [? ? ? ? ? ? ?|? ? ? ? ? ? ? ? ? ? ?|? ? ? ? ? ? ? ? ? ? ? ? ?]; try congruence. lia. }
  assert (HI : c_ie c <> None -> NDIR g < IE g).
  { intros Hn. rewrite A4 in Hn. pose proof (ok_IE g OK).
    destruct (co_cases g OK l A1) as [? ? ? ? ? ? ?|? ? ? ? ? ? ? ? ? ? ?|? ? ? ? ? ? ? ? ? ? ? ? ?]; try congruence; lia. }
  set (cost0 := if 0 <? DINDIR_POINTERS g then 3 else if NDIR g <? IE g then 2 else 1).
  set (cost1 := if 0 <? DINDIR_POINTERS g then 2 + dcost s c else cost0).
  assert (E1 : (if 0 <? DINDIR_POINTERS g then
     match c_de c with
     | Some _ => n <- lift (is_new g (c_db c));; ret (if n : bool then cost0 - 1 else cost0)
     | None => ret (cost0 - 1) end else ret cost0) (s, c) = (Ok cost1, (s, c))).
  { unfold cost1, cost0, dcost. destruct (0 <? DINDIR_POINTERS g); [|reflexivity].
    destruct (c_de c) eqn:Ed; [|reflexivity].
    rewrite (s_db _ _ _ _ S) by congruence. unfold bind, lift. cbn [fst snd].
    rewrite (is_new_spec _ _ _ _ _ _ _ _ K). cbn [fst snd ret]. specialize (Nd (pm (c_ino c) (pD g l))).
    unfold ret. destruct (N.eqb_spec (need s (pm (c_ino c) (pD g l))) 1) as [E|E]; cbn [negb]; do 2 f_equal; try lia; f_equal; lia. }
  unfold bind at 1. rewrite E1. clear E1.
  set (cost2 := if NDIR g <? IE g then cost1 - 1 + icost s c depth else cost1).
  assert (C1 : NDIR g < IE g -> 1 <= cost1).
  { intros Hx. unfold cost1, cost0. destruct (0 <? DINDIR_POINTERS g); [lia|]. destruct (N.ltb_spec (NDIR g) (IE g)); lia. }
  assert (E2 : (if NDIR g <? IE g then
     match c_ie c, depth with
     | Some _, BD_INDIR | Some _, BD_DATA => n <- lift (is_new g (c_ib c));; ret (if n : bool then cost1 - 1 else cost1)
     | _, _ => ret (cost1 - 1) end else ret cost1) (s, c) = (Ok cost2, (s, c))).
  { unfold cost2, icost. destruct (N.ltb_spec (NDIR g) (IE g)); [|reflexivity]. specialize (C1 H).
    destruct (c_ie c) eqn:Ed; [|unfold ret; do 2 f_equal; lia].
    assert (X : (n0 <- lift (is_new g (c_ib c));; ret (if n0 : bool then cost1 - 1 else cost1)) (s, c)
                = (Ok (cost1 - 1 + need s (c_ib c)), (s, c))).
    { rewrite (s_ib _ _ _ _ S) by congruence. unfold bind, lift. cbn [fst snd].
      rewrite (is_new_spec _ _ _ _ _ _ _ _ K). cbn [fst snd]. specialize (Nd (pm (c_ino c) (pI g l))).
      unfold ret. destruct (N.eqb_spec (need s (pm (c_ino c) (pI g l))) 1) as [E|E]; cbn [negb]; do 2 f_equal; try lia; f_equal; lia. }
    destruct depth; [unfold ret; do 2 f_equal; lia|exact X|exact X]. }
  unfold bind at 1. rewrite E2. clear E2.
  assert (C2 : cost2 = 1 + dcost s c + icost s c depth).
  { unfold cost2, cost1, cost0, dcost, icost.
    destruct (N.ltb_spec 0 (DINDIR_POINTERS g)) as [H|H].
    - destruct (N.ltb_spec (NDIR g) (IE g)) as [H1|H1]; [|unfold DINDIR_POINTERS in H; lia]. lia.
    - destruct (c_de c); [exfalso; assert (X : Some n <> None) by discriminate; specialize (HD X); lia|].
      destruct (N.ltb_spec (NDIR g) (IE g)) as [H1|H1]; [lia|].
      destruct (c_ie c); [exfalso; assert (X : Some n <> None) by discriminate; specialize (HI X); lia|]. lia. }
  rewrite C2. unfold tcost.
  destruct depth; try (unfold ret; do 2 f_equal; lia).
  rewrite (s_dat _ _ _ _ S). unfold bind, lift. cbn [fst snd].
  rewrite (is_new_spec _ _ _ _ _ _ _ _ K). cbn [fst snd]. specialize (Nd (pm (c_ino c) (pT g l))).
  unfold ret. destruct (N.eqb_spec (need s (pm (c_ino c) (pT g l))) 1) as [E|E]; cbn [negb]; do 2 f_equal; try lia; f_equal; lia.
Qed.

Lemma iset_ent_meta e v a : meta_same a (iset_ent e v a). Proof. repeat split. Qed.

(** Branching the block of one slot and storing its number in the parent. *)
Lemma branch_slot L pm s c l p k buf :
  Core (c_ino c) (c_i c) L pm Dnone s -> CM g s c -> c_dirty c = true -> l < INODE_DATA_BLOCKS g ->
  (p = pD g l \/ p = pI g l \/ p = pT g l) -> vptr g p -> kh k = phgt g p -> lfirst g p * BS g < L ->
  match ppar p with None => True | Some q => pm (c_ino c) q <> 0 /\ com s (pm (c_ino c) q) = false /\ 0 < phgt g q end ->
  (buf = Some true -> pm (c_ino c) p <> 0) -> (0 < phgt g p -> buf <> None) ->
  (p <> pT g l -> 0 < phgt g p) ->
  need s (pm (c_ino c) p) <= m_free (s_w s) ->
  (pm (c_ino c) p = 0 -> N.min (RESV g) (NALLOC g) < m_free (s_w s) + s_afree s) ->
  exists nb s1 s2 s3 io',
    BranchOneBlock g (pm (c_ino c) p) buf k s = (Ok nb, s1) /\
    (0 < phgt g p -> node_owner nb (c_ino c) s1 = (Ok tt, s2)) /\ (phgt g p = 0 -> s2 = s1) /\
    match ppar p with
    | None => forall e, p = P1 e -> io' = iset_ent e nb (c_i c) /\ s3 = iset_st s2 c io'
    | Some q => io' = c_i c /\ forall k', p = child q k' -> node_set (pm (c_ino c) q) k' nb s2 = (Ok tt, s3)
    end /\
    Core (c_ino c) io' L (pupd pm (c_ino c) p nb) Dnone s3 /\ CM g s3 (cset_i io' c) /\
    nb <> 0 /\ com s nb = false /\ BB (c_ino c) l pm s (pupd pm (c_ino c) p nb) s3 /\
    m_free (s_w s) = m_free (s_w s3) + need s (pm (c_ino c) p) /\
    m_free (s_w s) + s_afree s = m_free (s_w s3) + s_afree s3 + (if pm (c_ino c) p =? 0 then 1 else 0) /\
    meta_same (c_i c) io' /\ i_blocks io' = i_blocks (c_i c) /\
    (buf <> None -> k = KData -> forall x, data_of g (dk s3 nb) x =
        if pm (c_ino c) p =? 0 then 0 else data_of g (dk s (pm (c_ino c) p)) x) /\
    (p <> pT g l -> pm (c_ino c) (pT g l) <> 0 -> dk s3 (pm (c_ino c) (pT g l)) = dk s (pm (c_ino c) (pT g l))).
Proof.
  intros K M Hd Hl Hpl Hv Hk Hlim Hpar Hb1 Hb2 Hnt Hneed Hrsv.
  set (i := c_ino c) in *.
  destruct (BranchOneBlock_spec g OK C0 D0 R0 i (c_i c) L pm Dnone s p k buf) as
    (nb & s1 & RUN & Nz & Cnb & Rnb & K1 & Dk1 & Own & Cont & Fr & Tot & Low); auto.
  { now apply CM_lv. }
  { destruct (ppar p); auto. tauto. }
  { unfold need in Hneed. destruct (N.eqb_spec (pm i p) 0); cbn [orb] in *; [right; lia|].
    destruct (com s (pm i p)); [right; lia|left; auto]. }
  set (pm1 := pupd pm i p nb) in *.
  assert (Cm1 : forall b, com s1 b = com s b) by (intros; eapply com_same; eauto).
  assert (E1 : pm1 i p = nb) by apply pupd_same.
  (* owner *)
  assert (S2 : exists s2, (0 < phgt g p -> node_owner nb i s1 = (Ok tt, s2)) /\ (phgt g p = 0 -> s2 = s1) /\
     Core i (c_i c) L pm1 (Dadd Dnone p) s2 /\ (forall b, b <> nb -> dk s2 b = dk s1 b) /\
     s_w s2 = s_w s1 /\ s_afree s2 = s_afree s1 /\ (phgt g p = 0 -> dk s2 nb = dk s1 nb)).
  { destruct (N.eq_dec (phgt g p) 0) as [Z|Z].
    - exists s1. sp; auto. lia.
    - destruct (node_owner_spec g OK C0 D0 R0 i (c_i c) L pm1 (Dadd Dnone p) s1 p i) as (x & RN & KN); auto.
      + now rewrite E1.
      + lia.
      + rewrite E1. now rewrite Cm1.
      + rewrite E1 in *. exists (dk_write nb x s1). sp; auto; try lia.
        intros b Hb. cbn. now apply upd_other. }
  destruct S2 as (s2 & RO & RO' & K2 & Dk2 & W2 & A2 & N2).
  assert (Cm2 : forall b, com s2 b = com s b) by (intros; eapply com_same; eauto).
  assert (NoNb : forall j q, pm j q <> 0 -> (j <> i \/ q <> p) -> pm j q <> nb).
  { intros j q Hq Hne E. destruct (Own j q E). destruct Hne; congruence. }
  (* the store *)
  assert (S3 : exists s3 io',
    match ppar p with
    | None => forall e, p = P1 e -> io' = iset_ent e nb (c_i c) /\ s3 = iset_st s2 c io'
    | Some q => io' = c_i c /\ forall k', p = child q k' -> node_set (pm i q) k' nb s2 = (Ok tt, s3)
    end /\ Core i io' L pm1 Dnone s3 /\ CM g s3 (cset_i io' c) /\ s_w s3 = s_w s2 /\ s_afree s3 = s_afree s2 /\
    meta_same (c_i c) io' /\ i_blocks io' = i_blocks (c_i c) /\
    (forall b, dk s3 b = dk s2 b \/ b = c_blk c \/ exists q, ppar p = Some q /\ b = pm i q)).
  { assert (M2 : CM g s2 c).
    { eapply (CM_dk g OK); [exact M| | |].
      - rewrite <- Low by (apply (CM_blk g OK _ _ M)). unfold cur. now rewrite W2.
      - apply Cm2.
      - assert (c_blk c <> nb). { pose proof (CM_blk g OK _ _ M). lia. }
        rewrite Dk2, Dk1; auto. }
    destruct (ppar p) as [q|] eqn:PP.
    - destruct Hpar as (Hq & Hcq & Hhq).
      assert (Qp : exists k', p = child q k' /\ k' < PE g).
      { destruct p as [e|e x|e d x]; cbn in PP; try discriminate; injection PP as <-; exists x; cbn in Hv |- *; split; auto; tauto. }
      destruct Qp as (k' & Ek & Hk').
      assert (Nqp : q <> p) by (rewrite Ek; intro; eapply (child_ne g q k' Hhq); eauto).
      assert (Eq : pm1 i q = pm i q) by (apply pupd_ptr; auto).
      destruct (node_set_spec g OK C0 D0 R0 i (c_i c) L pm1 (Dadd Dnone p) s2 q k' nb) as (x & RN & KN); auto.
      + now rewrite Eq.
      + rewrite Eq, Cm2; auto.
      + rewrite <- Ek. auto.
      + rewrite Eq in *. exists (dk_write (pm i q) x s2), (c_i c). split; [split; auto|].
        { intros k2 E2. replace k2 with k'; auto. rewrite Ek in E2. apply (child_inj g) in E2; tauto. }
        split; [|split; [|split; [|split; [|split; [|split]]]]]; auto.
        * eapply (Core_D OK); [|exact KN]. intros z [[[]|Hz] Hn]. congruence.
        * replace (cset_i (c_i c) c) with c by (destruct c; reflexivity).
          pose proof (CM_blk g OK _ _ M). pose proof (Core_blk OK K Hq) as (R & _).
          eapply (CM_dk g OK); [exact M2|reflexivity|reflexivity|]. cbn. apply upd_other. fold i. lia.
        * repeat split.
        * intros b. cbn. unfold upd. destruct (N.eqb_spec b (pm i q)); eauto.
    - assert (Pp : exists e, p = P1 e) by (destruct p; try discriminate; eauto). destruct Pp as [e Ep].
      exists (iset_st s2 c (iset_ent e nb (c_i c))), (iset_ent e nb (c_i c)).
      split; [intros e' E'; replace e' with e by congruence; auto|].
      split; [|split; [|split; [|split; [|split; [|split]]]]]; auto.
      + eapply (iset_Core g OK); eauto.
        * intros e2 He2 _. cbn. unfold upd. destruct (N.eqb_spec e2 e) as [->|Ne].
          -- rewrite <- Ep. auto.
          -- eapply (ino_sync); [apply (k_rep K2)|auto|]. intros [[]|E2]. congruence.
        * intros z [[]| ->]. right. eauto.
        * destruct (k_lim0 K2) as [B1 B2 B3]. constructor; auto.
      + now apply (iset_CM g OK).
      + apply (iset_w g OK).
      + apply (iset_afree g OK).
      + apply iset_ent_meta.
      + intros b. destruct (N.eq_dec b (c_blk c)); auto. left. now apply (iset_dk g OK). }
  destruct S3 as (s3 & io' & ST & K3 & M3 & W3 & A3 & Me & Bl & Dk3).
  exists nb, s1, s2, s3, io'.
  (* data blocks keep their contents *)
  assert (DKS : forall j m, m < INODE_DATA_BLOCKS g -> pm j (pT g m) <> 0 -> (j <> i \/ pT g m <> p) ->
     dk s3 (pm j (pT g m)) = dk s (pm j (pT g m))).
  { intros j m Hm Hp Hne. destruct (Core_blk OK K Hp) as (R & _).
    destruct (Dk3 (pm j (pT g m))) as [->|[E|(q & Eq & E)]].
    - rewrite Dk2, Dk1; auto.
    - pose proof (CM_blk g OK _ _ M). lia.
    - rewrite Eq in Hpar. destruct Hpar as (_ & _ & Hh). destruct (Core_inj OK K Hp E) as [_ E2].
      pose proof (pT_phgt g OK m Hm) as X. rewrite E2 in X. lia. }
  repeat (split; [assumption|]). split; [|split; [|split; [|split; [|split; [|split]]]]]; auto.
  - constructor.
    + intros j q Hjq. apply pupd_other. destruct Hjq as [|(? & ? & ?)]; auto. right. destruct Hpl as [|[|]]; congruence.
    + intros j q Hq. destruct (N.eq_dec j i) as [->|]; [|unfold pm1; now rewrite pupd_ino].
      destruct (ptr_eqb_spec q p) as [->|]; [now rewrite pupd_same|now rewrite pupd_ptr].
    + intros j m Hm Hn Hp. apply DKS; auto. destruct Hn as [|Hn]; auto. right. intros Ep.
      destruct (ptr_eqb_spec p (pT g l)) as [El|El].
      * apply Hn. apply (pT_inj g OK); auto. congruence.
      * specialize (Hnt El). pose proof (pT_phgt g OK m Hm) as X. rewrite Ep in X. lia.
    + intros b Hb. split.
      * rewrite <- Low by auto. unfold cur. now rewrite W3, W2.
      * destruct (Dk3 b) as [->|[->|(q & Eq & ->)]].
        -- right. rewrite Dk2, Dk1; auto; lia.
        -- left. apply M.
        -- rewrite Eq in Hpar. destruct Hpar as (Hq & _). pose proof (Core_blk OK K Hq). lia.
    + rewrite W3, W2. lia.
  - rewrite W3, W2. exact Fr.
  - rewrite W3, W2, A3, A2. exact Tot.
  - intros Hb Hkk x. destruct (Dk3 nb) as [->|[->|(q & Eq & ->)]].
    + rewrite N2 by (rewrite <- Hk, Hkk; reflexivity). auto.
    + pose proof (CM_blk g OK _ _ M). lia.
    + rewrite Eq in Hpar. destruct Hpar as (Hq & _ & Hh). destruct (Own i q eq_refl) as [_ E2].
      rewrite E2, <- Hk, Hkk in Hh. cbn in Hh. lia.
Qed.

(** Effect of one phase of branching the path to block l. *)
Record PH (L l : N) (pm : pmap) (s : st) (c : cin) (pm' : pmap) (s' : st) (c' : cin) : Prop := {
  ph_core : Core (c_ino c) (c_i c') L pm' Dnone s';
  ph_cm : CM g s' c'; ph_cid : cid c c'; ph_meta : meta_same (c_i c) (c_i c');
  ph_cs : CS g pm' c' l; ph_nb : i_blocks (c_i c') = nblk g pm' (c_ino c);
  ph_bb : BB (c_ino c) l pm s pm' s' }.

Lemma PH_trans L l pm s c pm1 s1 c1 pm2 s2 c2 : l < INODE_DATA_BLOCKS g ->
  PH L l pm s c pm1 s1 c1 -> PH L l pm1 s1 c1 pm2 s2 c2 -> PH L l pm s c pm2 s2 c2.
Proof.
  intros Hl [A1 A2 A3 A4 A5 A6 A7] [B1 B2 B3 B4 B5 B6 B7].
  assert (E : c_ino c1 = c_ino c) by apply A3. rewrite E in *.
  constructor; auto; try (eapply cid_trans; eauto; fail); try (eapply meta_trans; eauto; fail).
  eapply BB_trans; eauto.
Qed.

Definition slot_ok (s : st) (b : N) : Prop := need s b <= m_free (s_w s) /\
  (b = 0 -> N.min (RESV g) (NALLOC g) < m_free (s_w s) + s_afree s).

Definition ph_d : MC unit :=
  c <- getc ;;
  match c_de c with
   | None => ret tt
   | Some _ =>
     nb <- lift (BranchOneBlock g (c_db c) (Some (c_pd c)) KDindir) ;;
     modc (fun c => cset_pd true (cset_db nb c)) ;;;
     lift (node_owner nb (c_ino c)) ;;;
     iset (iset_ent (c_e c) nb)
   end.
Definition ph_i (depth : bdepth) : MC unit :=
  c <- getc ;;
  match c_ie c, depth with
   | Some _, BD_INDIR | Some _, BD_DATA =>
     nb <- lift (BranchOneBlock g (c_ib c) (Some (c_pi c)) KIndir) ;;
     modc (fun c => cset_pi true (cset_ib nb c)) ;;;
     lift (node_owner nb (c_ino c)) ;;;
     (match c_de c with
      | Some d => lift (node_set (c_db c) d nb)
      | None => iset (iset_ent (c_e c) nb)
      end)
   | _, _ => ret tt
   end.
Definition ph_t (depth : bdepth) (fbuf : bool) : MC unit :=
  c <- getc ;;
  match depth with
  | BD_DATA =>
    let fnew := c_dat c =? 0 in
    let buf := if fbuf || c_pb c then Some (c_pb c) else None in
    nb <- lift (BranchOneBlock g (c_dat c) buf KData) ;;
    modc (fun c => cset_pb (fbuf || c_pb c) (cset_dat nb c)) ;;;
    (match c_ie c with
     | Some k => lift (node_set (c_ib c) k nb)
     | None => iset (iset_ent (c_e c) nb)
     end) ;;;
    (if fnew then
       if i_blocks (c_i c) <? INODE_DATA_BLOCKS g then
         iset (fun i => iset_blocks (i_blocks i + 1) i)
       else lift (critical EFUBAR)
     else ret tt)
  | _ => ret tt
  end.

Definition ph_post (keep : bool) L l pm s c p (m : MC unit) : Prop :=
  exists nb pm' s' c', m (s, c) = (Ok tt, (s', c')) /\ PH L l pm s c pm' s' c' /\
    (forall j q, pm' j q = pupd pm (c_ino c) p nb j q) /\ nb <> 0 /\ com s nb = false /\
    m_free (s_w s) = m_free (s_w s') + need s (pm (c_ino c) p) /\
    m_free (s_w s) + s_afree s = m_free (s_w s') + s_afree s' + (if pm (c_ino c) p =? 0 then 1 else 0) /\
    (keep = true -> forall x, blkc pm' s' (c_ino c) l x = blkc pm s (c_ino c) l x).

Lemma ph_d_spec L l pm s c :
  Core (c_ino c) (c_i c) L pm Dnone s -> CM g s c -> c_dirty c = true -> CS g pm c l -> l * BS g < L ->
  i_blocks (c_i c) = nblk g pm (c_ino c) -> co_de g l <> None -> slot_ok s (pm (c_ino c) (pD g l)) ->
  ph_post true L l pm s c (pD g l) ph_d.
Proof.
  intros K M Hd S HL HB HN [Hn Hr].
  pose proof (s_at _ _ _ _ S) as (A1 & A2 & A3 & A4). rewrite (s_l _ _ _ _ S) in *.
  destruct (pD_phgt l A1 HN) as [P1h P1v]. destruct (path_first l A1) as [F1 _].
  assert (Pt : pD g l <> pT g l) by (intros E; pose proof (pT_phgt g OK l A1) as X; rewrite <- E in X; lia).
  assert (Pi : pI g l <> pD g l) by (unfold pI, pD; destruct (co_de g l); congruence).
  assert (Db : c_db c = pm (c_ino c) (pD g l)) by (apply S; congruence).
  destruct (branch_slot L pm s c l (pD g l) KDindir (Some (c_pd c))) as
    (nb & s1 & s2 & s3 & io' & R1 & R2 & _ & R3 & K3 & M3 & N3 & C3 & BB3 & Fr & Tot & Me & Bl & _ & Dt); auto.
  { pose proof (ok_BS g OK). nia. }
  { exact I. }
  { intros E. injection E as E. destruct (s_pd _ _ _ _ S E). congruence. }
  { congruence. }
  { lia. }
  destruct (R3 _ eq_refl) as [E1 E2]. clear R3. specialize (R2 ltac:(lia)).
  exists nb, (pupd pm (c_ino c) (pD g l) nb), s3, (cset_i io' (cset_pd true (cset_db nb c))).
  split.
  { unfold ph_d. unfold bind at 1, getc at 1. cbn [snd]. rewrite A3. destruct (co_de g l) as [d|] eqn:ED; [|congruence].
    unfold bind at 1, lift at 1. cbn [fst snd]. rewrite Db, R1. cbn [fst snd].
    unfold bind at 1, modc at 1. cbn [fst snd]. unfold bind at 1, lift at 1. cbn [fst snd]. rewrite R2.
    rewrite (iset_run g OK). cbn [c_i cset_pd cset_db cset_coord]. rewrite A2. rewrite E2, E1. reflexivity. }
  split; [|split; [|split; [|split; [|split; [|split]]]]]; auto.
  - constructor; auto.
    + eapply (csame_CM g OK); [|exact M3]. repeat split.
    + repeat split.
    + destruct S as [S1 S2 S3 S4 S5 S6 S7 S7' S8 S8' S9]. constructor; cbn; auto.
      * intros _. now rewrite pupd_same.
      * rewrite pupd_ptr by auto. auto.
      * rewrite pupd_ptr by auto. auto.
      * intros _. split; auto. congruence.
    + cbn. rewrite Bl, HB. symmetry. apply (nblk_node g OK). lia.
  - intros _ x. unfold blkc. rewrite pupd_ptr by auto.
    destruct (N.eqb_spec (pm (c_ino c) (pT g l)) 0); auto. now rewrite Dt.
Qed.

Lemma ph_i_spec L l pm s c depth :
  Core (c_ino c) (c_i c) L pm Dnone s -> CM g s c -> c_dirty c = true -> CS g pm c l -> l * BS g < L ->
  i_blocks (c_i c) = nblk g pm (c_ino c) -> co_ie g l <> None -> slot_ok s (pm (c_ino c) (pI g l)) ->
  (co_de g l <> None -> pm (c_ino c) (pD g l) <> 0 /\ com s (pm (c_ino c) (pD g l)) = false) ->
  depth <> BD_DINDIR ->
  ph_post true L l pm s c (pI g l) (ph_i depth).
Proof.
  intros K M Hd S HL HB HN [Hn Hr] HP Hdep.
  pose proof (s_at _ _ _ _ S) as (A1 & A2 & A3 & A4). rewrite (s_l _ _ _ _ S) in *.
  destruct (pI_phgt l A1 HN) as [P1h P1v]. destruct (path_first l A1) as [_ F1].
  assert (Pt : pI g l <> pT g l) by (intros E; pose proof (pT_phgt g OK l A1) as X; rewrite <- E in X; lia).
  assert (Ib : c_ib c = pm (c_ino c) (pI g l)) by (apply S; congruence).
  destruct (branch_slot L pm s c l (pI g l) KIndir (Some (c_pi c))) as
    (nb & s1 & s2 & s3 & io' & R1 & R2 & _ & R3 & K3 & M3 & N3 & C3 & BB3 & Fr & Tot & Me & Bl & _ & Dt); auto.
  { pose proof (ok_BS g OK). nia. }
  { unfold pI. destruct (co_de g l) eqn:ED; cbn; auto.
    destruct HP; [congruence|]. split; auto. split; auto.
    destruct (pD_phgt l A1) as [X _]; [congruence|]. cbn in X. lia. }
  { intros E. injection E as E. destruct (s_pi _ _ _ _ S E). congruence. }
  { congruence. }
  { lia. }
  specialize (R2 ltac:(lia)).
  exists nb, (pupd pm (c_ino c) (pI g l) nb), s3, (cset_i io' (cset_pi true (cset_ib nb c))).
  split.
  { assert (RUN : (nb <- lift (BranchOneBlock g (c_ib c) (Some (c_pi c)) KIndir) ;;
     modc (fun c => cset_pi true (cset_ib nb c)) ;;;
     lift (node_owner nb (c_ino c)) ;;;
     (match c_de c with
      | Some d => lift (node_set (c_db c) d nb)
      | None => iset (iset_ent (c_e c) nb)
      end)) (s, c) = (Ok tt, (s3, cset_i io' (cset_pi true (cset_ib nb c))))).
    { unfold bind at 1, lift at 1. cbn [fst snd]. rewrite Ib, R1. cbn [fst snd].
      unfold bind at 1, modc at 1. cbn [fst snd]. unfold bind at 1, lift at 1. cbn [fst snd]. rewrite R2.
      rewrite A3. unfold pI in R3, R1. destruct (co_de g l) as [d|] eqn:ED; cbn [ppar] in R3.
      - destruct R3 as [-> R3]. unfold lift. cbn [fst snd]. rewrite (s_db _ _ _ _ S) by congruence.
        unfold pD. rewrite (R3 d) by reflexivity. cbn. destruct c; reflexivity.
      - destruct (R3 _ eq_refl) as [E1 E2]. rewrite (iset_run g OK). cbn [c_i cset_pi cset_ib cset_coord].
        rewrite A2, E2, E1. reflexivity. }
    unfold ph_i. unfold bind at 1, getc at 1. cbn [snd]. rewrite A4. destruct (co_ie g l); [|congruence].
    destruct depth; [congruence| |]; exact RUN. }
  split; [|split; [|split; [|split; [|split; [|split]]]]]; auto.
  - constructor; auto.
    + eapply (csame_CM g OK); [|exact M3]. repeat split.
    + repeat split.
    + destruct S as [S1 S2 S3 S4 S5 S6 S7 S7' S8 S8' S9]. constructor; cbn; auto.
      * intros Hx. rewrite pupd_ptr; auto. rewrite A3 in Hx. unfold pI, pD. destruct (co_de g l); congruence.
      * intros _. now rewrite pupd_same.
      * rewrite pupd_ptr by auto. auto.
      * intros _. split; auto. congruence.
    + cbn. rewrite Bl, HB. symmetry. apply (nblk_node g OK). lia.
  - intros _ x. unfold blkc. rewrite pupd_ptr by auto.
    destruct (N.eqb_spec (pm (c_ino c) (pT g l)) 0); auto. now rewrite Dt.
Qed.

Lemma ph_t_spec L l pm s c fbuf :
  Core (c_ino c) (c_i c) L pm Dnone s -> CM g s c -> c_dirty c = true -> CS g pm c l -> l * BS g < L ->
  i_blocks (c_i c) = nblk g pm (c_ino c) -> slot_ok s (pm (c_ino c) (pT g l)) ->
  (co_ie g l <> None -> pm (c_ino c) (pI g l) <> 0 /\ com s (pm (c_ino c) (pI g l)) = false) ->
  ph_post fbuf L l pm s c (pT g l) (ph_t BD_DATA fbuf).
Proof.
  intros K M Hd S HL HB [Hn Hr] HP.
  pose proof (s_at _ _ _ _ S) as (A1 & A2 & A3 & A4). rewrite (s_l _ _ _ _ S) in *.
  pose proof (pT_phgt g OK l A1) as P1h. pose proof (pT_vptr g OK l A1) as P1v.
  assert (Dt : c_dat c = pm (c_ino c) (pT g l)) by (apply S).
  set (buf := if fbuf || c_pb c then Some (c_pb c) else None).
  destruct (branch_slot L pm s c l (pT g l) KData buf) as
    (nb & s1 & s2 & s3 & io' & R1 & _ & R2 & R3 & K3 & M3 & N3 & C3 & BB3 & Fr & Tot & Me & Bl & Ct & _); auto.
  { rewrite (lfirst_pT g OK) by auto. auto. }
  { unfold pT. destruct (co_ie g l) eqn:EI; cbn; auto.
    destruct HP; [congruence|]. destruct (pI_phgt l A1) as [X _]; [congruence|].
    rewrite (ppar_child g OK (pI g l) n _ eq_refl) by lia. split; auto. split; auto. lia. }
  { unfold buf. destruct (fbuf || c_pb c); [|congruence]. intros E. injection E as E.
    rewrite <- Dt. now apply (s_pb _ _ _ _ S). }
  { lia. }
  { congruence. }
  specialize (R2 P1h). subst s2.
  set (i := c_ino c) in *. set (pm' := pupd pm i (pT g l) nb) in *.
  set (c3 := cset_i io' (cset_pb (fbuf || c_pb c) (cset_dat nb c))).
  assert (NB : nblk g pm' i + (if c_dat c =? 0 then 0 else 1) = i_blocks (c_i c) + 1).
  { rewrite HB, Dt. unfold pm'. rewrite (nblk_data g OK) by auto. destruct (N.eqb_spec nb 0); congruence. }
  assert (CSo : forall x, CS g pm' (cset_i x c3) l).
  { intros x. destruct S as [S1 S2 S3 S4 S5 S6 S7 S7' S8 S8' S9]. constructor; cbn; auto.
    - intros Hx. rewrite A3 in Hx. unfold pm'. rewrite pupd_ptr; [apply S4; congruence|].
      intros E. destruct (pD_phgt l A1 Hx) as [X _]. rewrite E in X. lia.
    - intros Hx. rewrite A4 in Hx. unfold pm'. rewrite pupd_ptr; [apply S5; congruence|].
      intros E. destruct (pI_phgt l A1 Hx) as [X _]. rewrite E in X. lia.
    - unfold pm'. now rewrite pupd_same. }
  assert (RUN3 : (nb <- lift (BranchOneBlock g (c_dat c) buf KData) ;;
    modc (fun c => cset_pb (fbuf || c_pb c) (cset_dat nb c)) ;;;
    (match c_ie c with
     | Some k => lift (node_set (c_ib c) k nb)
     | None => iset (iset_ent (c_e c) nb)
     end)) (s, c) = (Ok tt, (s3, c3))).
  { unfold bind at 1, lift at 1. cbn [fst snd]. rewrite Dt, R1. cbn [fst snd].
    unfold bind at 1, modc at 1. cbn [fst snd]. rewrite A4. unfold pT in R3, R1. destruct (co_ie g l) as [k|] eqn:EI.
    - destruct (pI_phgt l A1) as [X _]; [congruence|].
      rewrite (ppar_child g OK (pI g l) k _ eq_refl) in R3 by lia.
      destruct R3 as [E3 R3]. unfold lift. cbn [fst snd]. rewrite (s_ib _ _ _ _ S) by congruence.
      fold i. rewrite (R3 k) by reflexivity. unfold c3. rewrite E3. destruct c; reflexivity.
    - cbn [ppar] in R3. destruct (R3 _ eq_refl) as [E1 E2]. rewrite (iset_run g OK). cbn [c_i cset_pb cset_dat cset_coord].
      rewrite A2, E2. unfold c3. rewrite E1. reflexivity. }
  assert (M3' : CM g s3 c3) by (eapply (csame_CM g OK); [|exact M3]; repeat split).
  assert (KEEP : forall s', dk s' nb = dk s3 nb -> fbuf = true -> forall x, blkc pm' s' i l x = blkc pm s i l x).
  { intros s' E Hf x. unfold blkc, pm'. rewrite pupd_same. destruct (N.eqb_spec nb 0); [congruence|]. rewrite E.
    rewrite Ct; auto. unfold buf. rewrite Hf. cbn. congruence. }
  assert (BIND : forall A B (m : MC A) (k : A -> MC B), bind m k = bind m k) by reflexivity. clear BIND.
  assert (PT : ph_t BD_DATA fbuf (s, c) = (if c_dat c =? 0 then
       if i_blocks (c_i c) <? INODE_DATA_BLOCKS g then
         iset (fun i => iset_blocks (i_blocks i + 1) i)
       else lift (critical EFUBAR)
     else ret tt) (s3, c3)).
  { unfold ph_t. unfold bind at 1, getc at 1. cbn [snd]. fold buf.
    unfold bind in RUN3 |- *. unfold modc in *. cbn [fst snd] in *.
    destruct (lift (BranchOneBlock g (c_dat c) buf KData) (s, c)) as [[x|] [sx cx]]; [|discriminate].
    cbn [fst snd] in *. rewrite RUN3. reflexivity. }
  destruct (N.eqb_spec (c_dat c) 0) as [Z|Z].
  - assert (LT : i_blocks (c_i c) < INODE_DATA_BLOCKS g).
    { rewrite HB. apply (nblk_lt g OK) with l; auto. congruence. }
    destruct (N.ltb_spec (i_blocks (c_i c)) (INODE_DATA_BLOCKS g)); [|lia].
    rewrite (iset_run g OK) in PT. set (io4 := iset_blocks (i_blocks (c_i c3) + 1) (c_i c3)) in *.
    exists nb, pm', (iset_st s3 c3 io4), (cset_i io4 c3).
    split; [exact PT|].
    assert (DK4 : forall b, b <> c_blk c -> dk (iset_st s3 c3 io4) b = dk s3 b) by (intros; apply (iset_dk g OK); auto).
    pose proof (CM_blk g OK _ _ M) as CB.
    split; [|split; [|split; [|split; [|split; [|split]]]]]; auto.
    + constructor; auto.
      * cbn. eapply (iset_Core g OK) with (c := c3) (D := Dnone); [exact M3'|exact K3| | |].
        -- intros e He _. cbn. eapply ino_sync; [apply (k_rep K3)|auto|intros []].
        -- intros p [].
        -- destruct (k_lim0 K3) as [B1 B2 B3]. constructor; auto.
      * now apply (iset_CM g OK).
      * repeat split.
      * cbn. fold i. unfold c3. cbn. rewrite Bl. lia.
      * destruct BB3 as [B1 B2 B3 B4 B5]. constructor; auto.
        -- intros j m Hm Hj Hp. rewrite DK4; auto. pose proof (Core_blk OK K Hp). lia.
        -- eapply (lows_trans g OK); eauto. intros b Hb. rewrite (iset_cur g OK). split; auto.
           destruct (N.eq_dec b (c_blk c)) as [->|]; [left; apply M|right; auto].
        -- now rewrite (iset_w g OK).
    + now rewrite (iset_w g OK).
    + now rewrite (iset_w g OK), (iset_afree g OK).
    + apply KEEP. apply DK4. intros E. rewrite E in *.
      assert (X : pm' i (pT g l) <> 0) by (unfold pm'; rewrite pupd_same; lia).
      pose proof (Core_blk OK K3 X) as (Y & _). unfold pm' in Y. rewrite pupd_same in Y. lia.
  - exists nb, pm', s3, c3. split; [exact PT|].
    split; [|split; [|split; [|split; [|split; [|split]]]]]; auto.
    constructor; auto.
    + repeat split.
    + replace c3 with (cset_i (c_i c3) c3) by reflexivity. apply CSo.
    + unfold c3. cbn. fold i. lia.
Qed.

Lemma bind_ext {S A B} (m : M S A) (k k' : A -> M S B) : (forall a x, k a x = k' a x) -> forall x, bind m k x = bind m k' x.
Proof using. intros H x. unfold bind. destruct (m x) as [[a|] x']; auto. Qed.
Lemma bind_getc {A B} (f : cin -> MC A) (k k' : A -> MC B) : (forall a x, k a x = k' a x) -> forall x,
  bind getc (fun c => bind (f c) k) x = bind (bind getc f) k' x.
Proof using. intros H x. unfold bind, getc. destruct (f (snd x) x) as [[a|] x']; auto. Qed.
Lemma BranchBlock_unfold depth fbuf s c cost :
  BranchBlockCost g depth (s, c) = (Ok cost, (s, c)) ->
  BranchBlock g depth fbuf (s, c) =
    if FreeBlockCount g s <? cost then (Err ENOSPC, (s, c))
    else critical_assert_c (ph_d ;;; ph_i depth ;;; ph_t depth fbuf) (s, c).
Proof.
  intros H. unfold BranchBlock. unfold bind at 1. rewrite H.
  unfold bind at 1, lift at 1, gets at 1. cbn [fst snd].
  destruct (FreeBlockCount g s <? cost); [reflexivity|].
  unfold critical_assert_c. erewrite bind_getc; [reflexivity|]. intros [] x.
  erewrite bind_getc; [reflexivity|]. intros [] y. reflexivity.
Qed.

(** the slots that are branched *)
Definition onpath (l : N) (depth : bdepth) (p : ptr) : Prop :=
  (co_de g l <> None /\ p = pD g l) \/ (co_ie g l <> None /\ depth <> BD_DINDIR /\ p = pI g l) \/
  (depth = BD_DATA /\ p = pT g l).

Definition bcost (s : st) (c : cin) (depth : bdepth) : N := dcost s c + icost s c depth + tcost s c depth.

Lemma PH_refl L l pm s c :
  Core (c_ino c) (c_i c) L pm Dnone s -> CM g s c -> CS g pm c l ->
  i_blocks (c_i c) = nblk g pm (c_ino c) -> PH L l pm s c pm s c.
Proof. intros. constructor; auto using cid_refl, meta_refl, BB_refl. Qed.

Lemma BranchBlock_spec L pm s c l depth fbuf :
  Core (c_ino c) (c_i c) L pm Dnone s -> CM g s c -> c_dirty c = true -> CS g pm c l -> l * BS g < L ->
  i_blocks (c_i c) = nblk g pm (c_ino c) ->
  (R0 = true -> forall p, onpath l depth p -> pm (c_ino c) p <> 0) ->
  (FreeBlockCount g s < bcost s c depth /\ BranchBlock g depth fbuf (s, c) = (Err ENOSPC, (s, c))) \/
  exists pm' s' c', bcost s c depth <= FreeBlockCount g s /\ BranchBlock g depth fbuf (s, c) = (Ok tt, (s', c')) /\
    PH L l pm s c pm' s' c' /\
    (forall p, onpath l depth p -> pm' (c_ino c) p <> 0 /\ com s (pm' (c_ino c) p) = false) /\
    (forall j p, ~ onpath l depth p -> pm' j p = pm j p) /\
    m_free (s_w s) = m_free (s_w s') + bcost s c depth /\
    (fbuf = true \/ depth <> BD_DATA -> forall x, blkc pm' s' (c_ino c) l x = blkc pm s (c_ino c) l x).
Proof.
  intros K M Hd S HL HB HR.
  pose proof (BranchBlockCost_spec L pm Dnone s c l depth K M S) as HC. fold (bcost s c depth) in HC.
  pose proof (BranchBlock_unfold depth fbuf s c _ HC) as RUN. clear HC.
  destruct (N.ltb_spec (FreeBlockCount g s) (bcost s c depth)) as [Hlt|Hge]; [left; auto|right].
  pose proof (s_at _ _ _ _ S) as (A1 & A2 & A3 & A4). rewrite (s_l _ _ _ _ S) in *.
  set (i := c_ino c) in *.
  assert (ENOUGH : bcost s c depth <= m_free (s_w s) /\
     (R0 = false -> 0 < bcost s c depth -> RESV g + bcost s c depth <= m_free (s_w s))).
  { revert Hge. unfold FreeBlockCount. rewrite (k_res K). destruct R0.
    - split; [lia|discriminate].
    - destruct (N.leb_spec (RESV g) (m_free (s_w s))); split; try lia. }
  destruct ENOUGH as [EN1 EN2].
  assert (Nd : forall s b, need s b = 1 \/ need s b = 0 /\ b <> 0).
  { intros s0 b. unfold need. destruct (N.eqb_spec b 0); cbn [orb]; auto. destruct (com s0 b); auto. }
  (* phase 1 *)
  assert (P1 : exists pm1 s1 c1, ph_d (s, c) = (Ok tt, (s1, c1)) /\ PH L l pm s c pm1 s1 c1 /\
     (co_de g l <> None -> pm1 i (pD g l) <> 0 /\ com s (pm1 i (pD g l)) = false) /\
     (forall j q, (co_de g l = None \/ q <> pD g l) -> pm1 j q = pm j q) /\
     m_free (s_w s) = m_free (s_w s1) + dcost s c /\
     (forall x, blkc pm1 s1 i l x = blkc pm s i l x)).
  { unfold dcost. destruct (c_de c) as [d|] eqn:ED.
    - assert (HN : co_de g l <> None) by congruence.
      assert (E : c_db c = pm i (pD g l)) by (apply S; congruence).
      destruct (ph_d_spec L l pm s c) as (nb & pm' & s' & c' & R & P & Q & N1 & N2 & F1 & F2 & B); auto.
      { fold i. split.
        - unfold bcost, dcost in EN1. rewrite ED, E in EN1. lia.
        - intros Z. destruct R0 eqn:ER; [exfalso; apply (HR eq_refl (pD g l)); auto; left; auto|].
          assert (X : 1 <= bcost s c depth).
          { unfold bcost, dcost. rewrite ED, E, Z. change (need s 0) with 1. clear. lia. }
          specialize (EN2 eq_refl). lia. }
      fold i in Q, F1, F2, B. exists pm', s', c'. sp; auto.
      + rewrite Q, pupd_same. auto.
      + intros j q [|Hq]; [congruence|]. rewrite Q. now apply pupd_ptr.
      + now rewrite E.
    - exists pm, s, c. sp; auto; try lia.
      + unfold ph_d, bind, getc. cbn [snd]. rewrite ED. reflexivity.
      + apply PH_refl; auto.
      + congruence. }
  destruct P1 as (pm1 & s1 & c1 & R1 & PH1 & T1 & U1 & F1 & B1).
  pose proof PH1 as [K1 M1 I1 Me1 S1 NB1 BB1].
  assert (J1 : c_ino c1 = i) by apply I1. fold i in K1, NB1, BB1. rewrite <- J1 in K1, NB1.
  assert (D1 : c_dirty c1 = true) by (destruct I1 as (_ & _ & _ & _ & X & _); congruence).
  pose proof (s_at _ _ _ _ S1) as (_ & A2' & A3' & A4'). rewrite (s_l _ _ _ _ S1) in *.
  assert (Cm1 : forall b, com s1 b = com s b) by (intros; eapply com_same; eauto).
  assert (Nd1 : forall b, need s1 b = need s b) by (intros; unfold need; now rewrite Cm1).
  assert (PID : forall p, (p = pI g l /\ co_ie g l <> None) \/ p = pT g l -> co_de g l = None \/ p <> pD g l).
  { intros p Hp. destruct (co_de g l) eqn:ED; auto. right. intros E.
    destruct (pD_phgt l A1) as [X _]; [congruence|]. rewrite <- E in X.
    destruct Hp as [[-> Hp]| ->].
    - destruct (pI_phgt l A1 Hp). lia.
    - rewrite (pT_phgt g OK) in X by auto. lia. }
  (* phase 2 *)
  assert (P2 : exists pm2 s2 c2, ph_i depth (s1, c1) = (Ok tt, (s2, c2)) /\ PH L l pm1 s1 c1 pm2 s2 c2 /\
     (co_ie g l <> None -> depth <> BD_DINDIR -> pm2 i (pI g l) <> 0 /\ com s (pm2 i (pI g l)) = false) /\
     (forall j q, (co_ie g l = None \/ depth = BD_DINDIR \/ q <> pI g l) -> pm2 j q = pm1 j q) /\
     m_free (s_w s1) = m_free (s_w s2) + icost s c depth /\
     (forall x, blkc pm2 s2 i l x = blkc pm s i l x)).
  { assert (TRIV : co_ie g l = None \/ depth = BD_DINDIR ->
       ph_i depth (s1, c1) = (Ok tt, (s1, c1)) /\ icost s c depth = 0).
    { intros Hx. unfold ph_i, icost, bind, getc. cbn [snd]. rewrite A4', A4.
      destruct (co_ie g l); auto. destruct Hx as [|Hx]; [congruence|]. rewrite Hx. auto. }
    assert (DEC : (co_ie g l = None \/ depth = BD_DINDIR) \/ (co_ie g l <> None /\ depth <> BD_DINDIR)).
    { destruct (co_ie g l), depth; auto; right; split; congruence. }
    destruct DEC as [Hx|[HN Hdp]].
    - destruct (TRIV Hx) as [E1 E2]. exists pm1, s1, c1. rewrite E2. sp; auto; try lia.
      + apply PH_refl; auto. 

      + intros; destruct Hx; congruence.
    - clear TRIV.
      assert (E : c_ib c = pm i (pI g l)) by (apply S; congruence).
      assert (E' : pm1 i (pI g l) = pm i (pI g l)) by (apply U1, PID; auto).
      assert (IC : icost s c depth = need s (pm i (pI g l))).
      { unfold icost. rewrite E, A4. destruct (co_ie g l), depth; congruence. }
      destruct (ph_i_spec L l pm1 s1 c1 depth) as (nb & pm' & s' & c' & R & P & Q & N1 & N2 & G1 & G2 & B); auto.
      { rewrite J1, E'. split.
        - rewrite Nd1. unfold bcost in EN1. rewrite IC in EN1. lia.
        - intros Z. destruct R0 eqn:ER; [exfalso; apply (HR eq_refl (pI g l)); auto; right; left; auto|].
          assert (X : 1 <= icost s c depth) by (rewrite IC, Z; change (need s 0) with 1; clear; lia).
          unfold bcost in EN2. specialize (EN2 eq_refl). lia. }
      { rewrite J1. intros Hx. rewrite Cm1. auto. }
      rewrite J1 in Q, G1, G2, B. exists pm', s', c'. sp; auto.
      + rewrite Q, pupd_same. rewrite <- Cm1. auto.
      + intros j q [|[|Hq]]; try congruence. rewrite Q. now apply pupd_ptr.
      + rewrite IC, G1, E', Nd1. reflexivity.
      + intros x. rewrite B; auto. }
  destruct P2 as (pm2 & s2 & c2 & R2 & PH2 & T2 & U2 & F2 & B2).
  pose proof PH2 as [K2 M2 I2 Me2 S2 NB2 BB2].
  assert (J2 : c_ino c2 = i) by (destruct I2; congruence). rewrite J1 in K2, NB2, BB2. rewrite <- J2 in K2, NB2.
  assert (D2 : c_dirty c2 = true) by (destruct I2 as (_ & _ & _ & _ & X & _); congruence).
  assert (Cm2 : forall b, com s2 b = com s b) by (intros; eapply com_same; eauto).
  assert (Nd2 : forall b, need s2 b = need s b) by (intros; unfold need; now rewrite Cm2).
  assert (E2 : pm2 i (pT g l) = pm i (pT g l)).
  { rewrite U2; [apply U1, PID; auto|]. destruct (co_ie g l) eqn:EI; auto. right. right. intros E.
    destruct (pI_phgt l A1) as [X _]; [congruence|]. rewrite <- E, (pT_phgt g OK) in X by auto. lia. }
  assert (E3 : co_de g l <> None -> pm2 i (pD g l) = pm1 i (pD g l)).
  { intros Hx. apply U2. right. right. unfold pD, pI. destruct (co_de g l); congruence. }
  assert (PH12 : PH L l pm s c pm2 s2 c2) by (eapply PH_trans; eauto).
  (* phase 3 *)
  assert (P3 : exists pm3 s3 c3, ph_t depth fbuf (s2, c2) = (Ok tt, (s3, c3)) /\ PH L l pm2 s2 c2 pm3 s3 c3 /\
     (depth = BD_DATA -> pm3 i (pT g l) <> 0 /\ com s (pm3 i (pT g l)) = false) /\
     (forall j q, (depth <> BD_DATA \/ q <> pT g l) -> pm3 j q = pm2 j q) /\
     m_free (s_w s2) = m_free (s_w s3) + tcost s c depth /\
     (fbuf = true \/ depth <> BD_DATA -> forall x, blkc pm3 s3 i l x = blkc pm s i l x)).
  { assert (DEC : depth = BD_DATA \/ depth <> BD_DATA) by (destruct depth; auto; right; congruence).
    destruct DEC as [Hx|Hx].
    - assert (E : c_dat c = pm i (pT g l)) by apply S.
      assert (TC : tcost s c depth = need s (pm i (pT g l))) by (unfold tcost; rewrite Hx, E; auto).
      destruct (ph_t_spec L l pm2 s2 c2 fbuf) as (nb & pm' & s' & c' & R & P & Q & N1 & N2 & G1 & G2 & B); auto.
      { rewrite J2, E2. split.
        - rewrite Nd2. unfold bcost in EN1. rewrite TC in EN1. lia.
        - intros Z. destruct R0 eqn:ER; [exfalso; apply (HR eq_refl (pT g l)); auto; right; right; auto|].
          assert (X : 1 <= tcost s c depth) by (rewrite TC, Z; change (need s 0) with 1; clear; lia).
          unfold bcost in EN2. specialize (EN2 eq_refl). lia. }
      { rewrite J2. intros Hi. rewrite Cm2. apply T2; auto. congruence. }
      rewrite J2 in Q, G1, G2, B. exists pm', s', c'. rewrite Hx. sp; auto.
      + rewrite Q, pupd_same. rewrite <- Cm2. auto.
      + intros j q [|Hq]; [congruence|]. rewrite Q. now apply pupd_ptr.
      + rewrite <- Hx, TC, G1, E2, Nd2. reflexivity.
      + intros [Hf|]; [|congruence]. intros x. rewrite B; auto.
    - exists pm2, s2, c2. sp; auto; try congruence.
      + unfold ph_t, bind, getc. destruct depth; auto; congruence.
      + apply PH_refl; auto.
      + unfold tcost. destruct depth; try lia; congruence. }
  destruct P3 as (pm3 & s3 & c3 & R3 & PH3 & T3 & U3 & F3 & B3).
  exists pm3, s3, c3. sp; auto.
  - rewrite RUN. unfold critical_assert_c, bind. rewrite R1, R2, R3. reflexivity.
  - eapply PH_trans; eauto.
  - intros p [[Hp ->]|[(Hp & Hdp & ->)|[Hp ->]]].
    + rewrite U3.
      * rewrite E3; auto.
      * right. destruct (PID (pT g l)) as [|X]; auto; congruence.
    + rewrite U3; [apply T2; auto|]. right. intros E.
      destruct (pI_phgt l A1 Hp) as [X _]. rewrite E, (pT_phgt g OK) in X by auto. lia.
    + apply T3; auto.
  - intros j p Hp. rewrite U3, U2, U1; auto.
    + destruct (co_de g l) eqn:ED; auto. right. intros ->. apply Hp. left. split; congruence.
    + destruct (co_ie g l) eqn:ED; auto. right. destruct depth; auto; right; intros ->; apply Hp; right; left; sp; congruence.
    + destruct depth; try (left; congruence). right. intros ->. apply Hp. right; right; auto.
  - unfold bcost. lia.
Qed.
End Branch.
