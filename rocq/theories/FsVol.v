(** The volume as a collection of files, seen through the inode operations. *)
From Verif Require Import Base Count FsState FsImap FsInode FsData FsTree FsImapProof FsWp FsInv FsStep FsSeek FsBranch FsRead FsWrite FsWrite2 FsTrunc FsTrunc2 FsTrunc3 FsTrunc4 FsTrunc5.
Ltac Zify.zify_post_hook ::= idtac.

(** A file or directory as the layers above see it. [a_byte off] is 0 beyond the end. *)
Record afile := mkAf { a_size : N; a_dir : bool; a_nlink : N; a_pino : N; a_byte : N -> N }.
Definition feq (a b : afile) : Prop :=
  a_size a = a_size b /\ a_dir a = a_dir b /\ a_nlink a = a_nlink b /\ a_pino a = a_pino b /\ forall x, a_byte a x = a_byte b x.
Definition oeq (a b : option afile) : Prop :=
  match a, b with Some x, Some y => feq x y | None, None => True | _, _ => False end.
Definition veq (V W : N -> option afile) : Prop := forall j, oeq (V j) (W j).
Lemma feq_refl a : feq a a. Proof. repeat split. Qed.
Lemma feq_sym a b : feq a b -> feq b a.
Proof. intros (A & B & C & D & E). repeat split; auto. Qed.
Lemma feq_trans a b c : feq a b -> feq b c -> feq a c.
Proof. intros (A & B & C & D & E) (A' & B' & C' & D' & E'). repeat split; try congruence. Qed.
Lemma oeq_refl a : oeq a a. Proof. destruct a; cbn; auto using feq_refl. Qed.
Lemma oeq_sym a b : oeq a b -> oeq b a.
Proof. destruct a, b; cbn; auto using feq_sym. Qed.
Lemma oeq_trans a b c : oeq a b -> oeq b c -> oeq a c.
Proof. destruct a, b, c; cbn; try tauto. apply feq_trans. Qed.
Lemma oeq_None a : oeq None a -> a = None. Proof. destruct a; cbn; tauto. Qed.
Lemma veq_refl V : veq V V. Proof. intros j; apply oeq_refl. Qed.
Lemma veq_sym V W : veq V W -> veq W V. Proof. intros H j; apply oeq_sym, H. Qed.
Lemma veq_trans U V W : veq U V -> veq V W -> veq U W. Proof. intros H1 H2 j; eapply oeq_trans; eauto. Qed.

Section Vol.
Variable g : cfg.
Hypothesis OK : cfg_ok g.
Set Default Proof Using "OK".
Notation LM := (INODE_SIZE_MAX g).
Notation T := (T g).
Notation lv := (lv g).

(** Agreement of two states below the first allocable block, slots of [i] excepted. *)
Definition frI (i : N) (s s' : st) : Prop :=
  forall b, b < FA g -> isslot g i b \/ cur s' b = cur s b /\ dk s' b = dk s b.
Lemma lows_frI i s s' : lows g i s s' -> frI i s s'.
Proof. intros H b Hb. destruct (H b Hb) as [A [B|B]]; auto. Qed.
Lemma frI_trans i s1 s2 s3 : frI i s1 s2 -> frI i s2 s3 -> frI i s1 s3.
Proof. intros H1 H2 b Hb. destruct (H1 b Hb) as [?|[A B]]; auto. destruct (H2 b Hb) as [?|[A' B']]; auto. right. split; congruence. Qed.
Lemma slot_notslot i j w : INODE_IS_VALID g j = true -> w <= 1 -> j <> i -> ~ isslot g i (InodeBlock g j w).
Proof. intros V Hw Hn (V0 & v & Hv & E). apply Hn. exact (proj1 (slot_inj g OK _ _ _ _ V V0 Hw Hv E)). Qed.
Lemma frI_slot i s s' j w : frI i s s' -> INODE_IS_VALID g j = true -> w <= 1 -> j <> i ->
  cur s' (InodeBlock g j w) = cur s (InodeBlock g j w) /\ dk s' (InodeBlock g j w) = dk s (InodeBlock g j w).
Proof.
  intros H V Hw Hn. destruct (H (InodeBlock g j w)) as [X|X]; auto; [apply slot_rng; auto|].
  destruct (slot_notslot i j w V Hw Hn X).
Qed.
Lemma frI_T i s s' j : frI i s s' -> j <> i -> T s' j = T s j.
Proof.
  intros H Hn. unfold FsInv.T. destruct (INODE_IS_VALID g j) eqn:V; auto.
  destruct (frI_slot i s s' j 0 H V ltac:(lia) Hn) as [-> ->]. destruct (frI_slot i s s' j 1 H V ltac:(lia) Hn) as [-> ->]. reflexivity.
Qed.
Lemma frI_lv i s s' j : frI i s s' -> j <> i -> lv s' j = lv s j.
Proof.
  intros H Hn. unfold FsInv.lv. destruct (INODE_IS_VALID g j) eqn:V; auto.
  destruct (frI_slot i s s' j 0 H V ltac:(lia) Hn) as [-> _]. destruct (frI_slot i s s' j 1 H V ltac:(lia) Hn) as [-> _]. reflexivity.
Qed.

Definition absI (pm : pmap) (s : st) (j : N) (io : inode) : afile :=
  mkAf (i_size io) (i_dir io) (i_nlink io) (i_pinode io) (vb g (i_size io) pm s j).
Definition absV (pm : pmap) (s : st) (j : N) : option afile := option_map (absI pm s j) (T s j).

(** A mounted inode between operations.  [b]: the cached coordinates can be used by a seek
    (not after a truncation, after which the structure is only put). *)
Definition CQ (pm : pmap) (s : st) (o : bool * cin) : Prop :=
  CM g s (snd o) /\ T s (c_ino (snd o)) = Some (c_i (snd o)) /\ CW0 g pm (snd o) /\ (fst o = true -> CWe g pm (snd o)).
Definition oino (o : bool * cin) : N := c_ino (snd o).

Lemma CM_T s c : CM g s c -> c_dirty c = true ->
  (cur s (InodeBlock g (c_ino c) 0) && cur s (InodeBlock g (c_ino c) 1) = false) -> T s (c_ino c) = Some (c_i c).
Proof.
  intros M D S. destruct (cm_dirty _ _ _ M D) as [_ E]. pose proof (cm_cur _ _ _ M) as Cu.
  destruct (cm_slot _ _ _ M) as (V & w & Hw & EB). rewrite EB in *. unfold FsInv.T. rewrite V.
  assert (X : w = 0 \/ w = 1) by lia. destruct X as [-> | ->].
  - now rewrite Cu, E.
  - rewrite Cu, andb_true_r in S. now rewrite S, Cu, E.
Qed.
Lemma CW0_pm pm pm' c : (forall p, pm' (c_ino c) p = pm (c_ino c) p) -> CW0 g pm c -> CW0 g pm' c.
Proof. intros H [A1 A2 A3 A4]. constructor; auto; rewrite H; auto. Qed.
Lemma CWe_pm pm pm' c : (forall p, pm' (c_ino c) p = pm (c_ino c) p) -> CWe g pm c -> CWe g pm' c.
Proof. intros H A I. rewrite !H. auto. Qed.
(** Open inodes other than the one worked on are not affected. *)
Lemma CQ_frame i pm s pm' s' o : frI i s s' -> (forall j q, j <> i -> pm' j q = pm j q) -> s_c s' = s_c s ->
  oino o <> i -> CQ pm s o -> CQ pm' s' o.
Proof.
  intros F HP HC Hn ([M1 M2 M3 M4 M5 M6] & HT & W & WE). destruct o as [b c]. unfold oino in Hn. cbn [fst snd] in *.
  destruct M3 as (V & w & Hw & E). destruct (frI_slot i s s' (c_ino c) w F V Hw Hn) as [X1 X2]. rewrite <- E in *.
  assert (Cm : forall b, com s' b = com s b) by (intros; unfold com; congruence).
  split; [|split; [|split]]; cbn [fst snd].
  - constructor; auto; rewrite ?Cm, ?X1, ?X2; auto. split; eauto.
  - rewrite (frI_T i s); auto.
  - eapply CW0_pm; [|exact W]. auto.
  - intros Hb. eapply CWe_pm; [|apply WE; auto]. auto.
Qed.
(** Contents of files whose blocks and pointers were not touched. *)
Lemma absV_frame i pm s pm' s' j : frI i s s' -> j <> i ->
  (forall io, T s j = Some io -> forall off, off < i_size io -> fbyte g pm' s' j off = fbyte g pm s j off) -> oeq (absV pm' s' j) (absV pm s j).
Proof.
  intros F Hn H. unfold absV. rewrite (frI_T i s s') by auto. destruct (T s j) as [io|]; [|exact I]. cbn [option_map oeq].
  repeat split; auto. intros x. cbn. unfold vb. destruct (N.ltb_spec x (i_size io)) as [L|L]; auto. exact (H io eq_refl x L).
Qed.

Variable C0 : mroot.
Variable D0 : N -> blk.
Variable R0 : bool.
Notation Core := (Core g C0 D0 R0).
Notation KT := (KT g C0 D0 R0).
Notation WK := (WK g C0 D0 R0).
Notation WS := (WS g C0 D0 R0).

(** No inode is being worked on. *)
Definition Idle (pm : pmap) (s : st) : Prop := Core 0 inode0 LM pm Dnone s.

Lemma v0 : INODE_IS_VALID g 0 = false. Proof using. clear. reflexivity. Qed.
Lemma T0 s : T s 0 = None. Proof using. clear. reflexivity. Qed.
Lemma T_ne s i io : T s i = Some io -> i <> 0. Proof using. clear. intros H ->. discriminate. Qed.
Lemma Idle_in pm s i io : Idle pm s -> T s i = Some io -> Core i io (i_size io) pm Dnone s /\ i_blocks io = nblk g pm i.
Proof.
  intros [K1 K2 K3 K4 K5 K6 K7 K8 K9 K10 K11 [R1 R2 R3] K13 K14 K15] HT. pose proof (T_ne _ _ _ HT) as H0.
  destruct (K14 i io HT H0) as [LI NB]. split; auto.
  constructor; auto.
  - intros j Hj _. apply K9; auto. intros ->. pose proof (lv_valid g OK _ _ Hj); discriminate.
  - constructor; auto.
    + intros j x e Hv He _. unfold view in Hv.
      assert (X : T s j = Some x) by (destruct (N.eqb_spec j i); congruence). apply R1; auto; [|intros [_ []]].
      unfold view. destruct (N.eqb_spec j 0) as [->|]; auto. discriminate.
    + intros j p Hp Hh. destruct (R2 j p Hp Hh) as (o & e & E & HE). exists o, e. split; auto. intros; apply HE; auto. intros [_ []].
  - intros j x Hj _. apply K14; auto. eapply T_ne; eauto.
Qed.
Lemma Core_out pm s i io : Core i io (i_size io) pm Dnone s -> T s i = Some io -> i_blocks io = nblk g pm i -> Idle pm s.
Proof.
  intros [K1 K2 K3 K4 K5 K6 K7 K8 K9 K10 K11 [R1 R2 R3] K13 K14 K15] HT HB.
  assert (P0 : forall p, pm 0 p = 0).
  { intros p. destruct (N.eq_dec (pm 0 p) 0) as [|X]; auto. destruct (t_dom K11 _ _ X) as [Y _]. discriminate. }
  constructor; auto.
  - intros j Hj _. destruct (N.eq_dec j i) as [->|]; eauto.
  - constructor; auto.
    + intros j x e Hv He _. unfold view in Hv. destruct (N.eqb_spec j 0) as [->|].
      * injection Hv as <-. now rewrite P0.
      * apply R1; auto; [|intros [_ []]]. unfold view. destruct (N.eqb_spec j i) as [->|]; congruence.
    + intros j p Hp Hh. destruct (R2 j p Hp Hh) as (o & e & E & HE). exists o, e. split; auto. intros; apply HE; auto. intros [_ []].
  - constructor; [intros p; rewrite P0; congruence|cbn; lia|lia].
  - intros j x Hj _. destruct (N.eq_dec j i) as [->|]; [|auto]. rewrite HT in Hj. injection Hj as <-. auto.
Qed.

(** * Blocks allocated since the last transaction point *)
(** The pointer map is determined by the volume. *)
Lemma mknode_inj h o e o' e' k : mknode h o e = mknode h o' e' -> e k = e' k.
Proof using. clear. unfold mknode. destruct (h =? 2); intros X; injection X as _ ->; reflexivity. Qed.
Lemma pm_det1 pm pm' s j p : Idle pm s -> Idle pm' s -> pm j p <> 0 -> pm' j p = pm j p.
Proof.
  intros K K'. 
  assert (UP : forall q k, 0 < phgt g q -> k < PE g -> (pm j q <> 0 -> pm' j q = pm j q) -> pm j (child q k) <> 0 -> pm' j (child q k) = pm j (child q k)).
  { intros q k Hq Hk IH NZ.
    assert (N0 : pm j q <> 0) by (intros Z; apply NZ, (r_zero (k_rep K)); auto). specialize (IH N0).
    destruct (r_node (k_rep K) _ _ N0 Hq) as (o & e & E & HE). rewrite <- IH in N0.
    destruct (r_node (k_rep K') _ _ N0 Hq) as (o' & e' & E' & HE'). rewrite IH, E in E'.
    rewrite <- HE, <- HE' by (auto; intros [_ []]). symmetry. eapply mknode_inj; eauto. }
  assert (A : forall e, pm j (P1 e) <> 0 -> pm' j (P1 e) = pm j (P1 e)).
  { intros e NZ. destruct (t_dom (k_tree K) _ _ NZ) as [L V]. cbn in V.
    assert (J0 : j <> 0) by (intros ->; pose proof (lv_valid g OK _ _ L); discriminate).
    destruct (k_ino K j L J0) as (x & X).
    assert (VW : view g s 0 inode0 j = Some x) by (unfold view; destruct (N.eqb_spec j 0); congruence).
    rewrite <- (r_ino (k_rep K) _ _ _ VW V) by (intros [_ []]). rewrite <- (r_ino (k_rep K') _ _ _ VW V) by (intros [_ []]). reflexivity. }
  assert (B : forall e k, pm j (P2 e k) <> 0 -> pm' j (P2 e k) = pm j (P2 e k)).
  { intros e k NZ. destruct (t_dom (k_tree K) _ _ NZ) as [_ (V1 & V2 & V3)]. apply (UP (P1 e) k); auto. cbn. lia. }
  destruct p as [e|e k|e d k]; auto. intros NZ. destruct (t_dom (k_tree K) _ _ NZ) as [_ (V1 & V2 & V3 & V4)].
  apply (UP (P2 e d) k); auto. cbn. lia.
Qed.
Lemma pm_det pm pm' s j p : Idle pm s -> Idle pm' s -> pm' j p = pm j p.
Proof.
  intros K K'. destruct (N.eq_dec (pm j p) 0) as [Z|NZ]; [|eapply pm_det1; eauto].
  destruct (N.eq_dec (pm' j p) 0) as [Z'|NZ']; [congruence|]. symmetry. eapply pm_det1; eauto.
Qed.
(** Block [l] of inode [i], and the nodes above it, are not part of the committed state. *)
Definition NewAt (s : st) (i l : N) : Prop := exists pm, Idle pm s /\ NewP g pm s i l.
Lemma NewAt_pm pm s i l : Idle pm s -> NewAt s i l <-> NewP g pm s i l.
Proof.
  intros K. split; [|intros H; exists pm; auto]. intros (pm' & K' & H) p Hp. rewrite <- (pm_det pm pm' s i p K K'). now apply H.
Qed.

(** A node above block [l] that keeps earlier blocks is above block [l - 1] too. *)
Lemma path_pred l p : l < INODE_DATA_BLOCKS g -> (co_de g l <> None /\ p = pD g l \/ co_ie g l <> None /\ p = pI g l) -> lfirst g p < l ->
  onpath g (l - 1) BD_DATA p.
Proof using OK.
  clear C0 D0 R0. intros Hl HP LP. pose proof (ok_PE g OK) as PP. assert (Hm : l - 1 < INODE_DATA_BLOCKS g) by lia.
  assert (Q : forall q, vptr g q -> phgt g q = 0 -> lfirst g q = l - 1 -> pT g (l - 1) = q).
  { intros q A B <-. now apply data_slot. }
  destruct (co_cases g OK l Hl) as [? ? D I ? ? ?|k Hk R HE Hh D I EL EF PI PT|d k Hd Hk R HE Hh D I EL EF PI PT].
  - destruct HP as [[X _]|[X _]]; congruence.
  - destruct HP as [[X _]|[_ ->]]; [congruence|]. rewrite PI in *. cbn [lfirst] in LP. pose proof (ok_IE g OK) as HI.
    assert (PTm := Q (P2 (co_e g l) (k - 1))). cbn in PTm. rewrite Hh in PTm. change (1 =? 2) with false in PTm. cbn iota in PTm.
    specialize (PTm ltac:(repeat split; lia) ltac:(lia) ltac:(lia)).
    destruct (co_cases g OK (l - 1) Hm) as [? ? D' I' ? ? PT'|k' Hk' R' HE' Hh' D' I' EL' EF' PI' PT'|d' k' Hd' Hk' R' HE' Hh' D' I' EL' EF' PI' PT'];
      rewrite PT' in PTm; try discriminate. injection PTm as E1 E2. right; left. split; [congruence|]. split; [discriminate|]. now rewrite PI', E1.
  - assert (exists d' k', d' < PE g /\ k' < PE g /\ efirst g (co_e g l) + d' * PE g + k' = l - 1 /\ (p = P2 (co_e g l) d -> d' = d)) as (d1 & k1 & A1 & A2 & A3 & A4).
    { destruct (N.eq_dec k 0) as [K0|K0].
      - assert (D0' : d <> 0). { intros ->. destruct HP as [[_ ->]|[_ ->]]; [unfold pD in LP|rewrite PI in LP]; cbn [lfirst] in LP; lia. }
        exists (d - 1), (PE g - 1). repeat split; try lia.
        + assert (d * PE g = (d - 1) * PE g + PE g) by (replace d with (d - 1 + 1) at 1 by lia; rewrite N.mul_add_distr_r; lia). lia.
        + intros ->. cbn [lfirst] in LP. rewrite Hh in LP. change (2 =? 2) with true in LP. cbn iota in LP. lia.
      - exists d, (k - 1). repeat split; lia. }
    assert (PTm := Q (P3 (co_e g l) d1 k1)). cbn in PTm. specialize (PTm ltac:(repeat split; lia) eq_refl A3).
    destruct (co_cases g OK (l - 1) Hm) as [? ? D' I' ? ? PT'|k' Hk' R' HE' Hh' D' I' EL' EF' PI' PT'|d' k' Hd' Hk' R' HE' Hh' D' I' EL' EF' PI' PT'];
      rewrite PT' in PTm; try discriminate. injection PTm as E1 E2 E3.
    destruct HP as [[_ ->]|[_ ->]].
    + left. split; [congruence|]. unfold pD. congruence.
    + right; left. split; [congruence|]. split; [discriminate|]. rewrite PI', PI, E1, E2. now rewrite (A4 PI).
Qed.

(** The volume with its files [V] and the mounted inodes [os]. *)
Definition VP (pm : pmap) (V : N -> option afile) (os : list (bool * cin)) (s : st) : Prop :=
  Idle pm s /\ veq (absV pm s) V /\ (forall o, In o os -> CQ pm s o) /\ NoDup (map oino os).
Definition VOL (V : N -> option afile) (os : list (bool * cin)) (s : st) : Prop := exists pm, VP pm V os s.

Lemma VOL_veq V W os s : veq V W -> VOL V os s -> VOL W os s.
Proof. intros E (pm & H1 & H2 & H3 & H4). exists pm. split; [|split; [|split]]; auto. eapply veq_trans; eauto. Qed.
Lemma VOL_drop V o os s : VOL V (o :: os) s -> VOL V os s.
Proof.
  intros (pm & H1 & H2 & H3 & H4). exists pm. cbn in H4. inversion H4; subst. split; [|split; [|split]]; auto. intros; apply H3. now right.
Qed.
Lemma VOL_swap V o1 o2 os s : VOL V (o1 :: o2 :: os) s -> VOL V (o2 :: o1 :: os) s.
Proof.
  intros (pm & H1 & H2 & H3 & H4). exists pm. split; [|split; [|split]]; auto.
  - intros o [|[|]]; apply H3; cbn; auto.
  - cbn in *. inversion H4 as [|? ? A B]; subst. inversion B as [|? ? C D]; subst. constructor; [|constructor; auto].
    + intros [X|X]; [apply A; left; auto|auto].
    + intros X; apply A; now right.
Qed.
Lemma VOL_flag V c os s : VOL V ((true, c) :: os) s -> VOL V ((false, c) :: os) s.
Proof.
  intros (pm & H1 & H2 & H3 & H4). exists pm. split; [|split; [|split]]; auto.
  intros o [<-|X]; [|apply H3; now right]. destruct (H3 _ (or_introl eq_refl)) as (A & B & C & D). split; [exact A|split; [exact B|split; [exact C|discriminate]]].
Qed.
Lemma VOL_V V b c os s : VOL V ((b, c) :: os) s ->
  exists a, V (c_ino c) = Some a /\ a_size a = i_size (c_i c) /\ a_dir a = i_dir (c_i c) /\ a_nlink a = i_nlink (c_i c) /\
    a_pino a = i_pinode (c_i c) /\ a_size a <= LM.
Proof.
  intros (pm & H1 & H2 & H3 & H4). destruct (H3 _ (or_introl eq_refl)) as (A & B & C & D). cbn [snd] in B. specialize (H2 (c_ino c)).
  unfold absV in H2. rewrite B in H2. cbn [option_map] in H2. destruct (V (c_ino c)) as [a|]; [|destruct H2].
  destruct H2 as (E1 & E2 & E3 & E4 & E5). cbn in *. exists a. repeat split; auto. rewrite <- E1.
  destruct (Idle_in _ _ _ _ H1 B) as [K _]. pose proof (k_lim0 K) as [_ X Y]. lia.
Qed.
(** Which inodes are live. *)
Lemma VOL_lv V os s j : VOL V os s -> lv s j = (match V j with Some _ => true | None => false end).
Proof.
  intros (pm & H1 & H2 & H3 & H4). specialize (H2 j). unfold absV in H2. destruct (lv s j) eqn:E.
  - destruct (k_ino H1 j E) as (x & Hx); [intros ->; pose proof (lv_valid g OK _ _ E); discriminate|].
    rewrite Hx in H2. cbn in H2. destruct (V j); auto. destruct H2.
  - destruct (T s j) eqn:ET; [rewrite (T_lv g OK _ _ _ ET) in E; discriminate|]. cbn in H2. now rewrite (oeq_None _ H2).
Qed.

Lemma Core_c i io L pm D s i' io' L' pm' D' s' : Core i io L pm D s -> Core i' io' L' pm' D' s' -> s_c s' = s_c s.
Proof. intros K K'. rewrite (k_c K), (k_c K'). reflexivity. Qed.

(** Generic update: an operation on a mounted inode that leaves everything else alone. *)
Lemma VP_upd pm V b c os s pm' s' c' b' a :
  VP pm V ((b, c) :: os) s -> KT pm' s' c' -> c_ino c' = c_ino c -> T s' (c_ino c) = Some (c_i c') -> frI (c_ino c) s s' ->
  (forall j q, j <> c_ino c -> pm' j q = pm j q) ->
  (forall j io off, j <> c_ino c -> T s j = Some io -> off < i_size io -> fbyte g pm' s' j off = fbyte g pm s j off) ->
  (b' = true -> CWe g pm' c') -> feq (absI pm' s' (c_ino c) (c_i c')) a ->
  VP pm' (upd V (c_ino c) (Some a)) ((b', c') :: os) s'.
Proof.
  intros (H1 & H2 & H3 & H4) (K & M & W & B) EI HT F HP HB HW HA. set (i := c_ino c) in *. rewrite EI in *.
  assert (I' : Idle pm' s') by (eapply Core_out; eauto).
  split; [exact I'|]. split; [|split].
  - intros j. unfold upd. destruct (N.eqb_spec j i) as [->|Hj].
    + unfold absV. rewrite HT. exact HA.
    + eapply oeq_trans; [eapply absV_frame; [exact F|exact Hj|]|apply H2]. intros io Hio off Ho. eapply HB; eauto.
  - intros o [<-|X].
    + split; [exact M|]. split; [cbn [snd]; now rewrite EI|]. split; [exact W|exact HW].
    + eapply CQ_frame; [exact F|exact HP|eapply Core_c; eauto| |apply H3; now right].
      cbn in H4. inversion H4 as [|? ? A B']; subst. intros E. apply A. unfold oino at 1. cbn [snd]. fold i. rewrite <- E. now apply in_map.
  - cbn in *. inversion H4 as [|? ? A B']; subst. constructor; auto. unfold oino at 1. cbn [snd]. rewrite EI. exact A.
Qed.
Lemma EF_frame P i pm s pm' s' : Idle pm s -> EF g i P pm s pm' s' -> 
  frI i s s' /\ (forall j q, j <> i -> pm' j q = pm j q) /\
  (forall j io off, j <> i -> T s j = Some io -> off < i_size io -> fbyte g pm' s' j off = fbyte g pm s j off).
Proof.
  intros I E. split; [apply lows_frI, E|]. split; [apply E|]. intros j io off Hn HT Ho.
  eapply (EF_fbyte g OK); [exact E| |now left]. destruct (Idle_in _ _ _ _ I HT) as [K _]. pose proof (k_lim0 K) as [_ X Y]. lia.
Qed.
Lemma KT_T pm s c : KT pm s c -> c_dirty c = true -> T s (c_ino c) = Some (c_i c).
Proof. intros (K & M & _) D. apply CM_T; auto. apply (k_slot K). apply M. Qed.

(** Entering an operation on a mounted inode. *)
Lemma VP_WK pm V c os s : VP pm V ((true, c) :: os) s -> WK (i_size (c_i c)) pm s c /\ i_blocks (c_i c) = nblk g pm (c_ino c).
Proof.
  intros (H1 & H2 & H3 & H4). destruct (H3 _ (or_introl eq_refl)) as (A & B & C & D). cbn [fst snd] in *.
  destruct (Idle_in _ _ _ _ H1 B) as [K X]. split; auto. split; [exact K|]. split; [exact A|]. split; auto.
Qed.
Lemma VP_a pm V b c os s : VP pm V ((b, c) :: os) s -> exists a, V (c_ino c) = Some a /\ feq (absI pm s (c_ino c) (c_i c)) a.
Proof.
  intros (H1 & H2 & H3 & H4). destruct (H3 _ (or_introl eq_refl)) as (A & B & C & D). cbn [fst snd] in *.
  specialize (H2 (c_ino c)). unfold absV in H2. rewrite B in H2. cbn [option_map] in H2. destruct (V (c_ino c)); [eauto|destruct H2].
Qed.

(** * Reading *)
Lemma vol_read V c os s start len : VOL V ((true, c) :: os) s ->
  exists a f c', V (c_ino c) = Some a /\
    RedInodeDataRead g start len (s, c) = (Ok (if a_size a <=? start then 0 else N.min len (a_size a - start), f), (s, c')) /\
    csame c c' /\ VOL V ((true, c') :: os) s /\
    forall x, x < len -> start + x < a_size a -> f x = a_byte a (start + x).
Proof.
  intros (pm & H). destruct (VP_WK _ _ _ _ _ H) as [W NB]. destruct (VP_a _ _ _ _ _ _ H) as (a & Va & E1 & E2 & E3 & E4 & E5). cbn in *.
  destruct (RedInodeDataRead_spec g OK C0 D0 R0 _ _ _ _ start len W) as (f & c' & R & SM & (K' & M' & (W0 & WE)) & HF).
  exists a, f, c'. rewrite E1 in R. split; [exact Va|]. split; [exact R|]. split; [exact SM|].
  pose proof SM as (X1 & X2 & X3 & X4 & X5 & X6 & X7). split.
  - exists pm. destruct H as (H1 & H2 & H3 & H4). split; [|split; [|split]]; auto.
    + intros o [<-|X]; [|apply H3; now right]. split; [exact M'|]. split; [|split; auto]. cbn [snd]. rewrite X1, X4. apply (H3 _ (or_introl eq_refl)).
    + cbn in *. unfold oino at 1. cbn [snd]. rewrite X1. exact H4.
  - intros x Hx Hs. rewrite HF; auto; [|lia]. rewrite <- E5. unfold vb. destruct (N.ltb_spec (start + x) (i_size (c_i c))); auto. lia.
Qed.
End Vol.
