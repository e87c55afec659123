(** Seeking: the cached coordinates always agree with the pointer map. *)
From Verif Require Import Base Count FsState FsImap FsInode FsData FsTree FsImapProof FsWp FsInv FsStep.
Ltac Zify.zify_post_hook ::= idtac.

Section Seek.
Variable g : cfg.
Hypothesis OK : cfg_ok g.
Set Default Proof Using "OK".

(** everything of the inode structure but the coordinates *)
Definition csame (c c' : cin) : Prop :=
  c_ino c' = c_ino c /\ c_mnt c' = c_mnt c /\ c_blk c' = c_blk c /\ c_i c' = c_i c /\ c_br c' = c_br c /\
  c_dirty c' = c_dirty c /\ c_dir c' = c_dir c.
Lemma csame_refl c : csame c c. Proof. repeat split. Qed.
Lemma csame_trans a b c : csame a b -> csame b c -> csame a c.
Proof. unfold csame. intuition congruence. Qed.
Lemma csame_coord c ini l e de ie db ib dat pd pi pb : csame c (cset_coord ini l e de ie db ib dat pd pi pb c).
Proof. repeat split. Qed.
Lemma csame_CM s c c' : csame c c' -> CM g s c -> CM g s c'.
Proof.
  intros (E1 & E2 & E3 & E4 & E5 & E6 & E7) [H1 H2 H3 H4 H5 H6].
  constructor; rewrite ?E1, ?E2, ?E3, ?E4, ?E5, ?E6, ?E7; auto.
Qed.

Definition AtL (c : cin) : Prop :=
  c_l c < INODE_DATA_BLOCKS g /\ c_e c = co_e g (c_l c) /\ c_de c = co_de g (c_l c) /\ c_ie c = co_ie g (c_l c).

(** Weak coherence of the coordinates (holds between operations). *)
Record CW0 (pm : pmap) (c : cin) : Prop := {
  w_at : c_inited c = true -> AtL c;
  w_pd : c_pd c = true -> c_inited c = true /\ c_de c <> None /\ c_db c <> 0 /\ c_db c = pm (c_ino c) (pD g (c_l c));
  w_pi : c_pi c = true -> c_inited c = true /\ c_ie c <> None /\ c_ib c <> 0 /\ c_ib c = pm (c_ino c) (pI g (c_l c));
  w_pb : c_pb c = true -> c_inited c = true /\ c_dat c <> 0 /\ c_dat c = pm (c_ino c) (pT g (c_l c)) }.
(** The cached node numbers that a seek within the same inode entry relies on. *)
Definition CWe (pm : pmap) (c : cin) : Prop :=
  c_inited c = true ->
  (c_de c <> None -> c_db c = pm (c_ino c) (pD g (c_l c))) /\
  (c_de c = None -> c_ie c <> None -> c_ib c = pm (c_ino c) (pI g (c_l c))) /\
  (c_ie c = None -> c_dat c = pm (c_ino c) (pT g (c_l c))).
Definition CW (pm : pmap) (c : cin) : Prop := CW0 pm c /\ CWe pm c.
Definition SeekPre (pm : pmap) (c : cin) (l : N) : Prop :=
  CW0 pm c /\ (c_inited c = true -> c_e c = co_e g l -> CWe pm c).

Lemma CW_pre pm c l : CW pm c -> SeekPre pm c l.
Proof. intros [H1 H2]. split; auto. Qed.

(** Strong coherence: right after a seek to [l]. *)
Record CS (pm : pmap) (c : cin) (l : N) : Prop := {
  s_ini : c_inited c = true; s_l : c_l c = l; s_at : AtL c;
  s_db : c_de c <> None -> c_db c = pm (c_ino c) (pD g l);
  s_ib : c_ie c <> None -> c_ib c = pm (c_ino c) (pI g l);
  s_dat : c_dat c = pm (c_ino c) (pT g l);
  s_pd : c_pd c = true -> c_de c <> None /\ c_db c <> 0;
  s_pd' : c_de c <> None -> c_db c <> 0 -> c_pd c = true;
  s_pi : c_pi c = true -> c_ie c <> None /\ c_ib c <> 0;
  s_pi' : c_ie c <> None -> c_ib c <> 0 -> c_pi c = true;
  s_pb : c_pb c = true -> c_dat c <> 0 }.

Lemma CS_CW pm c l : CS pm c l -> CW pm c.
Proof.
  intros [H1 H2 H3 H4 H5 H6 H7 H7' H8 H8' H9]. subst l. split.
  - constructor; auto.
    + intros H. destruct (H7 H). auto.
    + intros H. destruct (H8 H). auto.
  - intros _. auto.
Qed.

(** In sync: the contents of the inode and nodes on the way to l are those of the pointer map. *)
Lemma co_same_e l m : l < INODE_DATA_BLOCKS g -> m < INODE_DATA_BLOCKS g -> co_e g l = co_e g m ->
  (co_de g l = None <-> co_de g m = None) /\ (co_ie g l = None <-> co_ie g m = None) /\
  (co_ie g l = None -> l = m).
Proof.
  intros Hl Hm E.
  destruct (co_cases g OK l Hl) as [? Ee ? ? Hh ? ?|? ? ? ? Hh ? ? ? ? ? ?|? ? ? ? ? ? Hh ? ? ? ? ? ?];
  destruct (co_cases g OK m Hm) as [? Ee' ? ? Hh' ? ?|? ? ? ? Hh' ? ? ? ? ? ?|? ? ? ? ? ? Hh' ? ? ? ? ? ?];
  rewrite E in Hh; try (rewrite Hh in Hh'; discriminate);
  repeat match goal with H : co_de g _ = _ |- _ => rewrite H | H : co_ie g _ = _ |- _ => rewrite H end;
  repeat split; intros; try discriminate; auto; congruence.
Qed.

Section WithState.
Variable s : st.
Variable i0 : N.
Variable io : inode.
Variable D : ptr -> Prop.
Variable pm : pmap.
Hypothesis RP : Rep g (dk s) (view g s i0 io) i0 D pm.

Lemma ino_sync e : e < IE g -> ~ D (P1 e) -> i_ent io e = pm i0 (P1 e).
Proof using RP.
  intros H1 H2. apply (r_ino RP); auto.
  - unfold view. now rewrite N.eqb_refl.
  - tauto.
Qed.
Lemma dindir_sync e d : pm i0 (P1 e) <> 0 -> hgt g e = 2 -> d < PE g -> ~ D (P2 e d) ->
  exists f, get_dindir (pm i0 (P1 e)) s = (Ok f, s) /\ f d = pm i0 (P2 e d).
Proof using RP.
  intros H1 H2 H3 H4. destruct (r_node RP i0 (P1 e) H1) as (o & f & E & HE).
  - cbn. lia.
  - exists f. split.
    + unfold get_dindir. rewrite E. cbn. unfold mknode. rewrite H2. reflexivity.
    + apply HE; auto. cbn. tauto.
Qed.
Lemma indir_sync p k : pm i0 p <> 0 -> phgt g p = 1 -> k < PE g -> ~ D (child p k) ->
  exists f, get_indir (pm i0 p) s = (Ok f, s) /\ f k = pm i0 (child p k).
Proof using RP.
  intros H1 H2 H3 H4. destruct (r_node RP i0 p H1) as (o & f & E & HE).
  - lia.
  - exists f. split.
    + unfold get_indir. rewrite E. unfold mknode. rewrite H2. reflexivity.
    + apply HE; auto. tauto.
Qed.
End WithState.

Ltac csplit := match goal with |- csame _ _ => repeat split end.

Lemma SeekCoord_spec s c D pm l :
  CINODE_IS_MOUNTED g c = true -> l < INODE_DATA_BLOCKS g ->
  Rep g (dk s) (view g s (c_ino c) (c_i c)) (c_ino c) D pm ->
  SeekPre pm c l -> ~ D (P1 (co_e g l)) ->
  CW pm (SeekCoord g l c) /\ c_inited (SeekCoord g l c) = true /\ c_l (SeekCoord g l c) = l /\ csame c (SeekCoord g l c).
Proof.
  intros HM Hl RP [W0 WE] HD. unfold SeekCoord. rewrite HM. cbn [negb orb].
  destruct (N.leb_spec (INODE_DATA_BLOCKS g) l); [lia|].
  destruct (negb (c_l c =? l) || negb (c_inited c)) eqn:CH.
  2: { (* same block *)
    apply orb_false_iff in CH as [C1 C2]. apply negb_false_iff in C1, C2. apply N.eqb_eq in C1.
    split; [|split; [|split]]; auto; [|csplit]. split; auto. apply WE; auto.
    destruct (w_at _ _ W0 C2) as (_ & -> & _). congruence. }
  assert (HIE : co_e g l < IE g /\ i_ent (c_i c) (co_e g l) = pm (c_ino c) (P1 (co_e g l))).
  { assert (co_e g l < IE g).
    { pose proof (ok_IE g OK). destruct (co_cases g OK l Hl) as [? Ee|? ? ? ?|? ? ? ? ? ?]; lia. }
    split; auto. eapply ino_sync; eauto. }
  destruct HIE as [HI HE].
  destruct (l <? NDIR g) eqn:L1.
  { (* direct *)
    assert (Ee : co_e g l = l) by (unfold co_e; rewrite L1; reflexivity).
    assert (Ed : co_de g l = None) by (unfold co_de; rewrite L1; reflexivity).
    assert (Ei : co_ie g l = None) by (unfold co_ie; rewrite L1; reflexivity).
    cbn. split; [|split; [|split]]; auto; [|csplit]. split.
    - constructor; cbn; try discriminate. intros _. unfold AtL. cbn. rewrite Ee, Ed, Ei. auto.
    - intros _. cbn. repeat split; try congruence. intros _. unfold pT. rewrite Ei. rewrite Ee in *. exact HE. }
  destruct (l <? INODE_INDIR_BLOCKS g + NDIR g) eqn:L2.
  { (* indirect *)
    assert (Ee : (l - NDIR g) / PE g + NDIR g = co_e g l) by (unfold co_e; rewrite L1, L2; reflexivity).
    assert (Ed : co_de g l = None) by (unfold co_de; rewrite L1, L2; reflexivity).
    assert (Ei : co_ie g l = Some ((l - NDIR g) mod PE g)) by (unfold co_ie; rewrite L1, L2; reflexivity).
    rewrite Ee. cbn [c_e c_inited PutDindir PutData cset_pd cset_pb cset_coord].
    destruct (negb (c_e c =? co_e g l) || negb (c_inited c)) eqn:CE.
    - cbn. split; [|split; [|split]]; auto; [|csplit]. split.
      + constructor; cbn; try discriminate. intros _. unfold AtL. cbn. rewrite Ed, Ei. auto.
      + intros _. cbn. repeat split; try congruence. intros _ _. unfold pI. rewrite Ed. exact HE.
    - apply orb_false_iff in CE as [C1 C2]. apply negb_false_iff in C1, C2. apply N.eqb_eq in C1.
      destruct (w_at _ _ W0 C2) as (A1 & A2 & A3 & A4).
      destruct (WE C2 C1 C2) as (B1 & B2 & B3).
      assert (SE : co_e g (c_l c) = co_e g l) by congruence.
      destruct (co_same_e _ _ A1 Hl SE) as (S1 & S2 & S3).
      assert (EPI : pI g (c_l c) = pI g l).
      { unfold pI. rewrite Ed, SE. rewrite (proj2 S1 Ed). reflexivity. }
      assert (EIB : c_ib c = pm (c_ino c) (pI g l)).
      { rewrite <- EPI. apply B2.
        - rewrite A3. now apply S1.
        - rewrite A4. intros X. apply S2 in X. congruence. }
      cbn. split; [|split; [|split]]; auto; [|csplit]. split.
      + constructor; cbn; try discriminate.
        * intros _. unfold AtL. cbn. rewrite Ed, Ei. auto.
        * intros Hp. destruct (w_pi _ _ W0 Hp) as (_ & _ & X & _). repeat split; auto. discriminate.
      + intros _. cbn. repeat split; try congruence. }
  (* double indirect *)
  set (off := l - NDIR g - INODE_INDIR_BLOCKS g).
  assert (Ee : off / DINDIR_DATA_BLOCKS g + NDIR g + NIND g = co_e g l) by (unfold co_e; rewrite L1, L2; reflexivity).
  assert (Ed : co_de g l = Some (off mod DINDIR_DATA_BLOCKS g / PE g)) by (unfold co_de; rewrite L1, L2; reflexivity).
  assert (Ei : co_ie g l = Some (off mod DINDIR_DATA_BLOCKS g mod PE g)) by (unfold co_ie; rewrite L1, L2; reflexivity).
  rewrite Ee. cbn [c_e c_inited c_de PutDindir PutData PutIndir cset_pd cset_pb cset_pi cset_coord].
  destruct (negb (c_e c =? co_e g l) || negb (c_inited c)) eqn:CE.
  - cbn. split; [|split; [|split]]; auto; [|csplit]. split.
    + constructor; cbn; try discriminate. intros _. unfold AtL. cbn. rewrite Ed, Ei. auto.
    + intros _. cbn. repeat split; try congruence. intros _. unfold pD. exact HE.
  - apply orb_false_iff in CE as [C1 C2]. apply negb_false_iff in C1, C2. apply N.eqb_eq in C1.
    destruct (w_at _ _ W0 C2) as (A1 & A2 & A3 & A4).
    destruct (WE C2 C1 C2) as (B1 & B2 & B3).
    assert (SE : co_e g (c_l c) = co_e g l) by congruence.
    destruct (co_same_e _ _ A1 Hl SE) as (S1 & S2 & S3).
    assert (EPD : pD g (c_l c) = pD g l) by (unfold pD; congruence).
    assert (EDB : c_db c = pm (c_ino c) (pD g l)).
    { rewrite <- EPD. apply B1. rewrite A3. intros X. apply S1 in X. congruence. }
    destruct (negb (match c_de c with Some d => d =? _ | None => false end)) eqn:CD.
    + cbn. split; [|split; [|split]]; auto; [|csplit]. split.
      * constructor; cbn; try discriminate.
        -- intros _. unfold AtL. cbn. rewrite Ed, Ei. auto.
        -- intros Hp. destruct (w_pd _ _ W0 Hp) as (_ & _ & X & _). repeat split; auto. discriminate.
      * intros _. cbn. repeat split; try congruence.
    + apply negb_false_iff in CD.
      assert (EDE : c_de c = co_de g l).
      { destruct (c_de c); [|discriminate]. apply N.eqb_eq in CD. congruence. }
      assert (EPI : pI g (c_l c) = pI g l).
      { unfold pI. rewrite <- A3, EDE, SE. reflexivity. }
      cbn. split; [|split; [|split]]; auto; [|csplit]. split.
      * constructor; cbn; try discriminate.
        -- intros _. unfold AtL. cbn. rewrite Ed, Ei. auto.
        -- intros Hp. destruct (w_pd _ _ W0 Hp) as (_ & _ & X & _). repeat split; auto. discriminate.
        -- intros Hp. destruct (w_pi _ _ W0 Hp) as (_ & _ & X & Y). repeat split; auto; [discriminate|]. congruence.
      * intros _. cbn. repeat split; try congruence.
Qed.

(** SeekInode: the state does not change, the coordinates become those of the block, and the
    result tells whether the block is allocated. *)
Lemma SeekInode_spec C0 D0 R0 s c D pm L l :
  Core g C0 D0 R0 (c_ino c) (c_i c) L pm D s -> CM g s c -> l < INODE_DATA_BLOCKS g ->
  SeekPre pm c l -> ~ D (pD g l) -> ~ D (pI g l) -> ~ D (pT g l) ->
  exists c', SeekInode g l (s, c) = (if pm (c_ino c) (pT g l) =? 0 then Err ENODATA else Ok tt, (s, c')) /\
    csame c c' /\ CS pm c' l.
Proof.
  intros K M Hl SP HD1 HD2 HD3. pose proof (k_rep K) as RP.
  destruct (SeekCoord_spec s c D pm l (CM_mounted g OK _ _ M) Hl RP SP) as ([W0 WE] & Ini & EL & SM).
  { exact HD1. }
  set (c1 := SeekCoord g l c) in *.
  unfold SeekInode. unfold bind at 1, getc at 1. cbn [snd].
  rewrite (CM_mounted g OK _ _ M). destruct (N.leb_spec (INODE_DATA_BLOCKS g) l); [lia|]. cbn [negb orb].
  unfold bind at 1, modc at 1. cbn [fst snd]. fold c1.
  unfold bind at 1, getc at 1. cbn [snd].
  destruct SM as (E1 & E2 & E3 & E4 & E5 & E6 & E7).
  destruct (w_at _ _ W0 Ini) as (A1 & A2 & A3 & A4). rewrite EL in *.
  destruct (WE Ini) as (B1 & B2 & B3). rewrite EL in B1, B2, B3.
  pose proof (ok_PE g OK) as HP.
  destruct (co_cases g OK l Hl) as [G1 G2 G3 G4 G5 G6 G7|k G1 G2 G3 G4 G5 G6 G7 G8 G9 G10|d k G0 G1 G2 G3 G4 G5 G6 G7 G8 G9 G10].
  - (* direct *)
    rewrite A3, G3. unfold bind at 1, ret at 1. unfold bind at 1, getc at 1. cbn [snd]. rewrite A4, G4.
    unfold bind at 1, ret at 1. unfold bind at 1, getc at 1. cbn [snd].
    assert (ED : c_dat c1 = pm (c_ino c) (pT g l)) by (rewrite B3 by congruence; congruence).
    exists c1. rewrite ED. split; [destruct (pm (c_ino c) (pT g l) =? 0); reflexivity|].
    split; [repeat split; assumption|].
    constructor; auto; try congruence.
    + unfold AtL. rewrite EL. auto.
    + intros Hp. destruct (w_pd _ _ W0 Hp) as (_ & X & _). congruence.
    + intros Hp. destruct (w_pi _ _ W0 Hp) as (_ & X & _). congruence.
    + intros Hp. destruct (w_pb _ _ W0 Hp) as (_ & X & _). congruence.
  - (* indirect *)
    rewrite A3, G5. unfold bind at 1, ret at 1. unfold bind at 1, getc at 1. cbn [snd]. rewrite A4, G6.
    assert (EI : c_ib c1 = pm (c_ino c) (pI g l)) by (rewrite B2 by congruence; congruence).
    rewrite EI. rewrite G9 in *. rewrite G10 in *.
    destruct (N.eqb_spec (pm (c_ino c) (P1 (co_e g l))) 0) as [Z|Z].
    + assert (ZT : pm (c_ino c) (P2 (co_e g l) k) = 0).
      { apply (r_zero RP _ (P1 (co_e g l)) k Z); auto. cbn. lia. }
      rewrite ZT. exists (cset_dat 0 c1). split; [reflexivity|].
      split; [repeat split; assumption|].
      constructor; cbn; auto; try congruence.
      * unfold AtL. cbn. rewrite EL. auto.
      * intros Hp. destruct (w_pd _ _ W0 Hp) as (_ & X & _). congruence.
      * intros Hp. destruct (w_pi _ _ W0 Hp) as (_ & X & Y & _). auto.
      * intros Hp. destruct (w_pb _ _ W0 Hp) as (_ & X & Y). rewrite EL, G10, E1 in Y. congruence.
    + destruct (indir_sync s _ _ _ _ RP (P1 (co_e g l)) k Z) as (f & Ef & Fk); auto.
      unfold bind at 1. unfold bind at 1. unfold lift at 1. cbn [fst snd]. rewrite Ef. cbn [fst snd].
      unfold modc at 1. cbn [fst snd]. unfold bind at 1, getc at 1. cbn [snd fst].
      exists (cset_dat (f k) (cset_pi true c1)). rewrite Fk. split.
      { cbn. destruct (pm (c_ino c) (P2 (co_e g l) k) =? 0); reflexivity. }
      split; [repeat split; assumption|].
      constructor; cbn; auto; try congruence.
      * unfold AtL. cbn. rewrite EL. auto.
      * intros Hp. destruct (w_pd _ _ W0 Hp) as (_ & X & _). congruence.
      * intros _. split; congruence.
      * intros Hp. destruct (w_pb _ _ W0 Hp) as (_ & X & Y). rewrite EL, G10, E1 in Y. congruence.
  - (* double indirect *)
    rewrite A3, G5.
    assert (ED : c_db c1 = pm (c_ino c) (P1 (co_e g l))) by (rewrite B1 by congruence; unfold pD; congruence).
    rewrite ED. rewrite G9 in *. rewrite G10 in *.
    assert (Hpd : c_pd c1 = true -> c_db c1 <> 0) by (intros Hp; destruct (w_pd _ _ W0 Hp) as (_ & _ & X & _); auto).
    assert (Hpi : c_pi c1 = true -> pm (c_ino c) (P2 (co_e g l) d) <> 0).
    { intros Hp; destruct (w_pi _ _ W0 Hp) as (_ & _ & X & Y). rewrite EL, G9, E1 in Y. congruence. }
    assert (Hpb : c_pb c1 = true -> pm (c_ino c) (P3 (co_e g l) d k) <> 0).
    { intros Hp; destruct (w_pb _ _ W0 Hp) as (_ & X & Y). rewrite EL, G10, E1 in Y. congruence. }
    unfold bind at 1.
    match goal with |- context[let (r, s') := ?m0 (s, c1) in _] => set (m := m0) end.
    assert (S2 : exists c2, m (s, c1)
          = (Ok tt, (s, c2)) /\ csame c1 c2 /\ c_inited c2 = true /\ c_l c2 = l /\ AtL c2 /\
          c_db c2 = c_db c1 /\ c_ib c2 = pm (c_ino c) (P2 (co_e g l) d) /\
          (c_pd c2 = true <-> c_db c1 <> 0) /\ c_pi c2 = c_pi c1 /\ c_pb c2 = c_pb c1).
    { unfold m. destruct (N.eqb_spec (pm (c_ino c) (P1 (co_e g l))) 0) as [Z|Z].
      - assert (ZT : pm (c_ino c) (P2 (co_e g l) d) = 0).
        { apply (r_zero RP _ (P1 (co_e g l)) d Z); auto. cbn. lia. }
        exists (cset_ib 0 c1). split; [reflexivity|]. split; [repeat split|]. cbn.
        repeat (split; [auto; fail|]). unfold AtL. cbn. rewrite EL. split; auto.
        repeat (split; [auto; fail|]). split; [split; intros; auto; congruence|auto].
      - destruct (dindir_sync s _ _ _ _ RP (co_e g l) d Z) as (f & Ef & Fk); auto.
        exists (cset_ib (f d) (cset_pd true c1)). split.
        { unfold bind, lift. cbn [fst snd]. rewrite Ef. reflexivity. }
        split; [repeat split|]. cbn.
        repeat (split; [auto; fail|]). unfold AtL. cbn. rewrite EL. split; auto.
        repeat (split; [auto; fail|]). split; [split; intros; auto; congruence|auto]. }
    destruct S2 as (c2 & R2 & SM2 & I2 & L2 & AT2 & DB2 & IB2 & PD2 & PI2 & PB2).
    rewrite R2. clear R2.
    destruct SM2 as (F1 & F2 & F3 & F4 & F5 & F6 & F7).
    pose proof AT2 as (T1 & T2 & T3 & T4). rewrite L2 in T2, T3, T4.
    unfold bind at 1, getc at 1. cbn [snd]. rewrite T4, G6, IB2.
    assert (PHI : phgt g (P2 (co_e g l) d) = 1) by (cbn; lia).
    destruct (N.eqb_spec (pm (c_ino c) (P2 (co_e g l) d)) 0) as [Z|Z].
    + assert (ZT : pm (c_ino c) (P3 (co_e g l) d k) = 0).
      { apply (r_zero RP _ (P2 (co_e g l) d) k Z); auto. lia. }
      rewrite ZT. exists (cset_dat 0 c2). split; [reflexivity|].
      split; [repeat split; cbn; congruence|].
      constructor; cbn; auto; try congruence; rewrite ?T3, ?T4, ?G5, ?G6, ?DB2, ?IB2, ?PI2, ?PB2; try congruence.
      * intros _. unfold pD. congruence.
      * intros Hp. split; [discriminate|]. now apply PD2.
      * intros _ Hx. now apply PD2.
      * intros Hp. destruct (Hpi Hp). exact Z.
      * intros Hp. destruct (Hpb Hp). exact ZT.
    + destruct (indir_sync s _ _ _ _ RP (P2 (co_e g l) d) k Z) as (f & Ef & Fk); auto.
      unfold bind at 1. unfold bind at 1. unfold lift at 1. cbn [fst snd]. rewrite Ef. cbn [fst snd].
      unfold modc at 1. cbn [fst snd]. unfold bind at 1, getc at 1. cbn [snd fst].
      exists (cset_dat (f k) (cset_pi true c2)). rewrite Fk. split.
      { cbn. destruct (pm (c_ino c) (P3 (co_e g l) d k) =? 0); reflexivity. }
      split; [repeat split; cbn; congruence|].
      constructor; cbn; auto; try congruence; rewrite ?T3, ?T4, ?G5, ?G6, ?DB2, ?IB2, ?PB2; try congruence.
      * intros _. unfold pD. congruence.
      * intros Hp. split; [discriminate|]. now apply PD2.
      * intros _ Hx. now apply PD2.
      * intros _. split; [discriminate|auto].
      * intros Hp. apply Hpb in Hp. cbn. congruence.
Qed.
End Seek.
