(** The file system operations of core.c against the user-level specification FsSpec.v:
    the operations on directories, one directory at a time. *)
From Verif Require Import Base Count FsState FsImap FsInode FsData FsTree FsImapProof FsWp FsInv FsStep FsSeek FsBranch FsRead FsWrite FsWrite2 FsVol FsVol2 FsVol3 FsVol4 FsDir FsDirP FsDirP2 FsDirP3 FsCore FsSpec FsSpecP.
Ltac Zify.zify_post_hook ::= idtac.

(** ** Volume files against nodes *)
Section CoreP.
Variable g : cfg.
Hypothesis OK : cfg_ok g.
Set Default Proof Using "OK".
Notation FBC := (FreeBlockCount g).
Notation DirRep := (DirRep g).

Definition RN (o : option afile) (m : option anode) : Prop :=
  match o, m with
  | None, None => True
  | Some a, Some (AFile nl sz b) => a_dir a = false /\ a_nlink a = nl /\ a_size a = sz /\ forall x, a_byte a x = b x
  | Some a, Some (ADir p sl) => a_pino a = p /\ a_nlink a = 1 /\ exists n, DirRep a n sl
  | _, _ => False
  end.
Definition REP (V : N -> option afile) (F : fs) : Prop := forall i, RN (V i) (F i).

Lemma REP_upd V F i a n : REP V F -> RN (Some a) (Some n) -> REP (upd V i (Some a)) (upd F i (Some n)).
Proof. intros H R j. unfold upd. destruct (j =? i); auto. Qed.
Lemma REP_del V F i : REP V F -> REP (upd V i None) (upd F i None).
Proof. intros H j. unfold upd. destruct (j =? i); cbn; auto. Qed.
Lemma REP_dir V F i p sl : REP V F -> F i = Some (ADir p sl) -> exists a n, V i = Some a /\ a_pino a = p /\ a_nlink a = 1 /\ DirRep a n sl.
Proof. intros H E. specialize (H i). rewrite E in H. destruct (V i) as [a|]; cbn in H; [|tauto]. destruct H as (A & B & n & C). exists a, n. auto. Qed.
Lemma REP_file V F i nl sz b : REP V F -> F i = Some (AFile nl sz b) ->
  exists a, V i = Some a /\ a_dir a = false /\ a_nlink a = nl /\ a_size a = sz /\ forall x, a_byte a x = b x.
Proof. intros H E. specialize (H i). rewrite E in H. destruct (V i) as [a|]; cbn in H; [|tauto]. exists a. auto. Qed.
Lemma REP_none V F i : REP V F -> F i = None -> V i = None.
Proof. intros H E. specialize (H i). rewrite E in H. destruct (V i); cbn in H; tauto. Qed.
Lemma REP_none' V F i : REP V F -> V i = None -> F i = None.
Proof. intros H E. specialize (H i). rewrite E in H. destruct (F i) as [[? ? ?|? ?]|]; cbn in H; tauto. Qed.
Lemma REP_veq V W F : veq V W -> REP V F -> REP W F.
Proof.
  intros E H i. specialize (E i). specialize (H i). destruct (V i) as [a|], (W i) as [b|], (F i) as [[nl sz c|p sl]|]; cbn in *; try tauto.
  - destruct E as (A & B & C & D & E). destruct H as (H1 & H2 & H3 & H4). repeat split; try congruence.
  - destruct E as (A & B & C & D & E). destruct H as (H1 & H2 & n & [R1 R2 R3 R4 R5 R6 R7]). split; [congruence|]. split; [congruence|]. exists n. constructor; auto; try congruence.
    + intros k Hk Z. rewrite <- (R4 k Hk Z). apply (get32_ext g OK). intros; auto.
    + intros k nm i0 Hk. destruct (R5 _ _ _ Hk) as (X1 & X2 & X3 & X4). repeat split; auto; try apply X2; try apply X3. intros x Hx. rewrite <- E. auto.
Qed.
Lemma DirRep_ext a n s s' : (forall k, s k = s' k) -> DirRep a n s -> DirRep a n s'.
Proof.
  intros E [R1 R2 R3 R4 R5 R6 R7]. constructor; auto.
  - intros k Hk. rewrite <- E. auto.
  - intros k nm i. rewrite <- E. auto.
  - intros H. rewrite <- E. auto.
  - intros k l nm i j. rewrite <- !E. apply R7.
Qed.

Lemma upd_back (V : N -> option afile) i x y : V i = y -> veq (upd (upd V i x) i y) V.
Proof. intros E j. unfold upd. destruct (N.eqb_spec j i) as [->|]; [subst y|]; apply oeq_refl. Qed.

Lemma cid_facts c c' : cid c c' -> c_ino c' = c_ino c /\ c_dirty c' = c_dirty c /\ c_dir c' = c_dir c.
Proof. unfold cid. tauto. Qed.
Lemma csame_facts c c' : csame c c' -> c_ino c' = c_ino c /\ c_dirty c' = c_dirty c /\ c_dir c' = c_dir c /\ c_i c' = c_i c.
Proof. unfold csame. tauto. Qed.

Variables (C0 : mroot) (D0 : N -> blk).
Notation VOL := (VOL g C0 D0).

Lemma VOL_FBC R0 V os s : VOL R0 V os s -> FBC s = if R0 then m_free (s_w s) else if RESV g <=? m_free (s_w s) then m_free (s_w s) - RESV g else 0.
Proof. intros (pm & I & _). unfold FreeBlockCount. rewrite (k_res I). reflexivity. Qed.
Lemma VOL_ro R0 V os s : VOL R0 V os s -> s_ro s = false.
Proof. intros (pm & I & _). apply (k_ro I). Qed.
(** Nothing but the switch for reserved blocks depends on the switch for reserved blocks. *)
Lemma VOL_res R0 R1 V os s : VOL R0 V os s -> VOL R1 V os (set_res R1 s).
Proof.
  intros (pm & I & A & B & C). exists pm. split; [|split; [exact A|split; [|exact C]]].
  2:{ intros o Ho. apply (CQ_frame g OK 0 pm s); [intros b _; right; split; reflexivity|auto|reflexivity| |apply B; auto].
      destruct (B o Ho) as (_ & T & _). unfold oino. eapply T_ne; exact T. }
  destruct I. constructor; auto. destruct k_imap. constructor; auto.
Qed.
Lemma VOL_resid R0 V os s : VOL R0 V os s -> set_res R0 s = s.
Proof. intros (pm & I & _). pose proof (k_res I) as H. destruct s; cbn in *. now rewrite H. Qed.
Lemma VOL_use R V os s : VOL false V os s -> exists s', use_reserved g R s = (Ok tt, s') /\ VOL (R && (0 <? RESV g)) V os s' /\ s_w s' = s_w s.
Proof.
  intros H. unfold use_reserved, modify. destruct (0 <? RESV g) eqn:E.
  - exists (set_res R s). split; auto. rewrite andb_true_r. split; auto. eapply VOL_res; eauto.
  - exists s. rewrite andb_false_r. auto.
Qed.
Lemma VOL_unuse R V os s : VOL (R && (0 <? RESV g)) V os s -> exists s', use_reserved g false s = (Ok tt, s') /\ VOL false V os s' /\ s_w s' = s_w s.
Proof.
  intros H. unfold use_reserved, modify. destruct (0 <? RESV g) eqn:E.
  - exists (set_res false s). split; auto. split; auto. eapply VOL_res; eauto.
  - exists s. rewrite andb_false_r in H. auto.
Qed.

(** Freeing an inode without data. *)
Lemma vol_free R0 V b c os s a : VOL R0 V ((b, c) :: os) s -> V (c_ino c) = Some a -> a_size a = 0 ->
  exists s' c', RedInodeFree g (s, c) = (Ok tt, (s', c')) /\ VOL R0 (upd V (c_ino c) None) os s' /\ m_free (s_w s') = m_free (s_w s).
Proof.
  intros HV Va Z. destruct (VOL_V g OK _ _ _ _ _ _ _ _ HV) as (a' & Va' & E1 & _). assert (a' = a) by congruence. subst a'.
  destruct HV as (pm & H). pose proof H as (I & HV & HQ & HN).
  set (i := c_ino c) in *. destruct (HQ (b, c) (or_introl eq_refl)) as (M & T0 & _). cbn [snd] in *. fold i in T0.
  destruct (Idle_in g OK _ _ _ _ _ _ _ I T0) as [K _].
  assert (P0 : forall p, pm i p = 0).
  { intros p. destruct (N.eq_dec (pm i p) 0) as [|X]; auto. pose proof (f_lim (k_lim0 K) _ X). lia. }
  destruct (free_ino g OK C0 D0 R0 pm s c _ _ K M P0) as (s2 & c2 & R2 & I2 & LV2 & F2 & DK2 & MF & _).
  exists s2, c2. split; [exact R2|]. split; [|exact MF]. cbn in HN. inversion HN as [|? ? NI ND]; subst.
  exists pm. split; [exact I2|]. split; [|split; auto].
  - intros j. unfold upd. destruct (N.eqb_spec j i) as [->|Hj].
    + unfold absV. destruct (FsInv.T g s2 i) eqn:E; cbn; auto. fold i in LV2. rewrite (T_lv g OK _ _ _ E) in LV2. discriminate.
    + eapply oeq_trans; [|apply HV]. apply (absV_frame g OK i); auto. intros x Hx off Ho.
      eapply (fbyte_high g OK); [exact K| |exact DK2].
      destruct (Idle_in g OK _ _ _ _ _ _ _ I Hx) as [Kj _]. pose proof (k_lim0 Kj) as [_ X Y]; lia.
  - intros o Ho. eapply (CQ_frame g OK i); [exact F2|auto|eapply (Core_c g OK); [exact I|exact I2]| |apply HQ; now right].
    intros E. apply NI. unfold oino at 1. cbn [snd]. fold i. rewrite <- E. now apply in_map.
Qed.

(** * Adding an entry *)
Definition dcreate_err (ents : N -> option (name * N)) (nm : name) (s' : st) (e : errno) : Prop :=
  bad_name (NMAX g) nm e \/ e = EINVAL /\ isdots nm = true \/ e = EEXIST /\ (exists k i, ents k = Some (nm, i)) \/
  e = ENOSPC /\ ((forall k, k < DIRENTS_MAX g -> ents k <> None) \/ FBC s' < MAXCOST g).

Lemma vol_dircreate V c os s nm ino a n ents :
  VOL false V ((true, c) :: os) s -> c_dirty c = true -> c_dir c = true -> V (c_ino c) = Some a -> DirRep a n ents ->
  (forall k, k < nlen nm -> nbyte nm k <> 0) -> INODE_IS_VALID g ino = true ->
  exists r s' c', RedDirEntryCreate g nm ino (s, c) = (r, (s', c')) /\ cid c c' /\
    match r with
    | Ok _ => exists k a' n', nok g nm /\ (forall l j, ents l <> Some (nm, j)) /\ ents k = None /\
        VOL false (upd V (c_ino c) (Some a')) ((true, c') :: os) s' /\ DirRep a' n' (upd ents k (Some (nm, ino))) /\
        a_nlink a' = a_nlink a /\ a_pino a' = a_pino a
    | Err e => VOL false V ((true, c') :: os) s' /\ dcreate_err ents nm s' e
    end.
Proof.
  intros HV CD CDir Va DR HZ VI. destruct (VOL_mounted g OK C0 D0 false _ _ _ _ _ HV) as [_ HM].
  destruct (vol_lookup g OK C0 D0 false V c os s nm a n ents HV CDir Va DR HZ) as (r & c1 & RL & CS & HV1 & LR).
  unfold RedDirEntryCreate. unfold lookup_res in LR.
  assert (EX : forall m : MC unit, (exists r s' c', m (s, c) = (r, (s', c')) /\ cid c c' /\
    match r with
    | Ok _ => exists k a' n', nok g nm /\ (forall l j, ents l <> Some (nm, j)) /\ ents k = None /\
        VOL false (upd V (c_ino c) (Some a')) ((true, c') :: os) s' /\ DirRep a' n' (upd ents k (Some (nm, ino))) /\
        a_nlink a' = a_nlink a /\ a_pino a' = a_pino a
    | Err e => VOL false V ((true, c') :: os) s' /\ dcreate_err ents nm s' e
    end) -> exists r s' c', (x <- getc ;; (if negb (CINODE_IS_DIRTY g x) || negb (INODE_IS_VALID g ino) then fail EINVAL else if negb (c_dir x) then fail ENOTDIR else m)) (s, c) = (r, (s', c')) /\ cid c c' /\
    match r with
    | Ok _ => exists k a' n', nok g nm /\ (forall l j, ents l <> Some (nm, j)) /\ ents k = None /\
        VOL false (upd V (c_ino c) (Some a')) ((true, c') :: os) s' /\ DirRep a' n' (upd ents k (Some (nm, ino))) /\
        a_nlink a' = a_nlink a /\ a_pino a' = a_pino a
    | Err e => VOL false V ((true, c') :: os) s' /\ dcreate_err ents nm s' e
    end).
  { intros m X. unfold bind at 1, getc at 1. cbn [snd]. rewrite HM, CD, VI, CDir. cbn [negb orb]. exact X. }
  apply EX. clear EX.
  destruct (N.eqb_spec (nlen nm) 0) as [Z|Z].
  { exists (Err EINVAL), s, c. split; [reflexivity|]. split; [apply (cid_refl g OK)|]. split; auto. left. left. auto. }
  destruct (N.ltb_spec (NMAX g) (nlen nm)) as [L|L].
  { exists (Err ENAMETOOLONG), s, c. split; [reflexivity|]. split; [apply (cid_refl g OK)|]. split; auto. left. right. auto. }
  destruct (isdots nm) eqn:DT.
  { exists (Err EINVAL), s, c. split; [reflexivity|]. split; [apply (cid_refl g OK)|]. split; auto. right. left. auto. }
  destruct (csame_facts _ _ CS) as (I1 & D1 & Dir1 & _). destruct (csame_cid g OK _ _ CS) as [CI _].
  destruct LR as [(k & i & E & ->)|(NM & f & -> & FR)].
  - exists (Err EEXIST), s, c1. split; [unfold bind; rewrite RL; reflexivity|]. split; auto. split; auto. right. right. left. eauto.
  - assert (INV32 : DIRENTS_MAX g <= DIR_INDEX_INVALID) by (unfold DIRENTS_MAX, DIR_INDEX_INVALID; apply N.le_min_l).
    destruct FR as [(-> & EN & FULL)|(F1 & F2 & F3 & F4)].
    + exists (Err ENOSPC), s, c1. split; [unfold bind; rewrite RL; reflexivity|]. split; auto. split; auto. right. right. right. auto.
    + assert (NK : nok g nm) by (split; [clear - Z L; lia|auto]).
      destruct (vol_direntwrite g OK C0 D0 false V c1 os s f ino nm a n ents HV1) as (c2 & s2 & CI2 & X); auto; try congruence.
      { left. split; auto. split; auto. intros k i E. destruct (NM _ _ E). }
      exists (match (fst (DirEntryWrite g f ino nm (s, c1))) with Ok _ => Ok tt | Err e => Err e end), s2, c2.
      destruct (N.eqb_spec f DIR_INDEX_INVALID) as [EF|EF]; [exfalso; apply F2; exact EF|].
      assert (RUN : (l <- RedDirEntryLookup g nm ;; match l with Found _ _ => fail EEXIST | NotFound idx => if idx =? DIR_INDEX_INVALID then fail ENOSPC else DirEntryWrite g idx ino nm end) (s, c)
          = DirEntryWrite g f ino nm (s, c1)).
      { unfold bind. rewrite RL. destruct (N.eqb_spec f DIR_INDEX_INVALID); [contradiction|]. reflexivity. }
      rewrite RUN. destruct X as [(RN & HV2 & FB & _)|(RN & HV2 & _)]; rewrite RN; cbn [fst].
      * split; auto. split; [eapply (cid_trans g OK); eauto|]. split; auto. right. right. right. auto.
      * split; auto. split; [eapply (cid_trans g OK); eauto|].
        rewrite I1 in HV2. eexists f, _, _. split; [exact NK|]. split; [intros l j E; exact (NM _ _ E)|]. split; auto. split; [exact HV2|].
        split; [|split; reflexivity].
        assert (DW := DirRep_write g OK a n ents f ino nm DR F3 F1). unfold ent_of in DW.
        destruct (N.eqb_spec ino 0) as [->|]; [discriminate VI|]. apply DW. left. split; auto. split; auto. intros k i E. destruct (NM _ _ E).
Qed.
End CoreP.
