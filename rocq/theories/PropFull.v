(** Running out of space: C24. *)
From Verif Require Import Base Count FsState FsImap FsInode FsData FsTree FsImapProof FsInv FsStep FsBranch FsRead FsWrite FsVol FsVol2 FsVol3 FsVol4 FsWp FsDir FsDirP FsCore FsWr FsRo FsSpec FsSpecP FsSpecN FsCoreP FsCoreP2 FsCoreP3 FsCoreP4 FsCoreP5 FsMach FsVolume FsVolumeP FsReach FsKeep PropFs PropNs PropSpace.
Ltac Zify.zify_post_hook ::= idtac.

Section P.
Variable g : cfg.
Hypothesis OK : cfg_ok g.
Variable atom : bool.
Variable MM TM TD : N.
Set Default Proof Using "All".
Notation exec := (exec g atom MM TM).
Notation step := (step g atom MM TM TD).
Notation reach := (reach g atom MM TM TD).
Notation Sim := (Sim g atom).
Notation ask := (ask g atom MM TM).
Notation content := (content g atom MM TM).
Notation found := (found g atom MM TM).
Notation is_file := (is_file g atom MM TM).
Notation is_dir := (is_dir g atom MM TM).
Notation at_pos := (at_pos g atom MM TM).

Lemma transact_err o v e v' t : RedVolTransact o v = (Err e, v', t) -> e = EFUBAR.
Proof using. unfold RedVolTransact. destruct (negb (s_br (v_s v))); [discriminate|]. destruct (UINT64_MAX <=? v_seq v + fst o); intros E; [congruence|discriminate]. Qed.
Ltac fin EX o2 := let TE := fresh in match type of EX with context[if ?b then _ else _] => destruct b end;
  [unfold pbind in EX; match type of EX with context[RedVolTransact o2 ?w] => destruct (RedVolTransact o2 w) as [[[[]|?e] ?] ?] eqn:TE end; [discriminate EX|apply transact_err in TE; subst; discriminate EX]|discriminate EX].
(** ENOSPC is the result of an attempt in the state the call ends in. *)
Lemma autocommit_nospc {A} ev (m : M st A) o1 o2 v v' t : autocommit ev m o1 o2 v = (Err ENOSPC, v', t) -> v_mnt v = true /\ s_ro (v_s v) = false /\
  exists s1, m (v_s v) = (Err ENOSPC, s1) /\
   (v_s v' = s1 \/ has (v_mask v) T_VOLFULL = true /\ 0 < s_afree s1 /\
     exists v2 t2, RedVolTransact o1 (vset_s s1 v) = (Ok tt, v2, t2) /\ exists s3, m (v_s v2) = (Err ENOSPC, s3) /\ v_s v' = s3).
Proof using.
  unfold autocommit, guard. destruct (v_mnt v); cbn [negb]; [|discriminate]. destruct (s_ro (v_s v)); [discriminate|]. intros EX. split; auto. split; auto.
  unfold pbind at 1 in EX. unfold pcatch, core in EX. destruct (m (v_s v)) as [r1 s1] eqn:R1.
  destruct r1 as [a|e].
  - exfalso. cbn in EX. fin EX o2.
  - exists s1. destruct e; try discriminate EX. split; auto. cbn [vset_s v_mask v_s] in EX.
    change (v_mask (vset_s s1 v)) with (v_mask v) in EX.
    destruct (has (v_mask v) T_VOLFULL) eqn:HV; cbn [andb] in EX; [|left; injection EX as <- _; auto].
    destruct (N.ltb_spec 0 (s_afree s1)) as [AF|AF]; [|left; injection EX as <- _; auto]. right. split; auto. split; auto.
    unfold pbind at 1 in EX. destruct (RedVolTransact o1 (vset_s s1 v)) as [[[[]|e2] v2] t2] eqn:T1.
    + exists v2, t2. split; auto. destruct (m (v_s v2)) as [[a|e3] s3] eqn:R3.
      * exfalso. cbn in EX. fin EX o2.
      * exists s3. injection EX as -> <- _. auto.
    + apply transact_err in T1. subst. discriminate EX.
Qed.
Lemma autocommit_first {A} ev (m : M st A) o1 o2 v r v' t : autocommit ev m o1 o2 v = (r, v', t) -> fst (m (v_s v)) <> Err ENOSPC -> r <> Err ENOSPC.
Proof using.
  intros E H ->. destruct (autocommit_nospc _ _ _ _ _ _ _ E) as (_ & _ & s1 & R & _). rewrite R in H. apply H. auto.
Qed.
Lemma FSV_free C0 D0 F s : FSV g C0 D0 F s -> N.min (RESV g) (NALLOC g) <= m_free (s_w s) + s_afree s.
Proof. intros H. destruct (FSV_Idle g OK _ _ _ _ H) as [pm K]. apply (k_rsv K). Qed.

(** After a transaction point a name can be deleted, however full the volume is.
    Configuration: the reserve covers the worst case cost of a branch (redcoremacs.h:77-101). *)
Theorem C24_delete v0 c r0 v p nm i r v' : MAXCOST g <= RESV g <= NALLOC g ->
  reach v0 -> step v0 (Some (ECall c (Ok r0))) v -> commit_call (v_mask v0) c -> s_ro (v_s v) = false ->
  found v p nm i -> (is_dir v i -> forall k nm' j, ~ at_pos v i k nm' j) ->
  step v (Some (ECall (CUnlink p nm) r)) v' -> r = Ok OUnit.
Proof.
  intros HR R0 S0 CC RO F EMP S. assert (R : reach v) by (eapply reach_step; eauto).
  destruct (commit_sim g OK atom MM TM TD v0 c r0 v R0 S0 CC) as (W & SA). pose proof (Sim_mnt g OK atom MM TM TD _ _ _ _ _ SA) as MN.
  assert (NZ : nozero nm) by (inversion S; auto).
  assert (NS : r <> Err ENOSPC).
  { destruct (commit_x g OK atom MM TM TD v0 c r0 v R0 S0 CC) as (C0 & D0 & W' & X & EC). pose proof (x_w _ _ _ _ _ _ _ X) as FW. rewrite (set_ro_id false _ RO) in FW.
    assert (AF : s_afree (v_s v) = 0).
    { destruct (FSV_Idle g OK _ _ _ _ FW) as [pm K]. pose proof (k_c K) as KC. destruct (k_imap K) as [_ IA _]. rewrite IA.
      apply count_0. intros b _. unfold afree_blk, cur, com. rewrite KC, EC. destruct (m_bits C0 b); auto. }
    pose proof (FSV_free _ _ _ _ FW) as FR.
    destruct (core_unlink g OK C0 D0 W' (v_s v) p nm FW (x_WF _ _ _ _ _ _ _ X) NZ) as (r1 & s1 & R1 & E1).
    inversion S; subst. match goal with H : exec _ _ _ _ = _ |- _ => rename H into EX end. cbn [FsVolume.exec] in EX. unfold ounit, omap, RedCoreUnlink, pbind at 1 in EX.
    destruct (autocommit T_UNLINK (CoreUnlink g p nm) o1 o2 v) as [[r2 v2] t2] eqn:AC. pose proof (autocommit_first _ _ _ _ _ _ _ _ AC) as AF1. rewrite R1 in AF1. cbn [fst] in AF1.
    assert (r2 <> Err ENOSPC).
    { apply AF1. intros ->. destruct E1 as (_ & [[(? & _)|(? & _)]|[[(? & _)|(? & _)]|[(? & _)|[(? & _)|(_ & _ & LT)]]]]); try discriminate.
      assert (MX : 1 <= MAXCOST g) by (unfold MAXCOST; destruct (0 <? DINDIR_POINTERS g), (NDIR g <? IE g); lia).
      replace (0 <? RESV g) with true in LT by (symmetry; apply N.ltb_lt; lia). lia. }
    destruct r2; injection EX as <- _ _; congruence. }
  destruct r as [x|e].
  - destruct (ok_sim g OK atom MM TM TD v _ x v' R S eq_refl) as (? & ? & ? & ? & ? & _ & _ & O). destruct O as (-> & _). auto.
  - exfalso. destruct (err_sim g OK atom MM TM TD v _ e v' R S eq_refl MN) as (W1 & C1 & C2 & ro & mask & SA1 & _ & O).
    assert (ro = false) by (destruct SA1 as (_ & Y & _); congruence). subst ro. destruct O as [(_ & O)|(? & _)]; [|discriminate].
    apply (found_W g OK atom MM TM TD _ _ _ _ _ SA1) in F; auto. destruct F as (k & F). pose proof (Sim_entry g OK atom MM TM TD _ _ _ _ _ _ _ _ _ SA1 F) as (((K1 & K2) & _ & K3) & _).
    destruct O as [->|[[(_ & O)|(_ & O)]|[[(_ & O)|(_ & O)]|[(_ & _ & O)|(_ & j & NJ & DJ & EJ)]]]]; try tauto; try lia.
    + destruct F as (? & ? & F & _). congruence.
    + eapply dir_file; eauto. eapply entry_dir; eauto.
    + eapply O. exists k. eauto.
    + assert (j = i) by (eapply (named_fun W1); eauto; [eapply (Sim_WF g OK atom MM TM TD); eauto|exists k; auto]). subst j. apply EJ. destruct DJ as (q & sl & DJ). exists q, sl. split; auto.
      intros l. destruct (sl l) as [[nm' j]|] eqn:SL; auto. exfalso. eapply EMP; [apply (is_dir_W g OK atom MM TM TD _ _ _ _ _ SA1); exists q, sl; eauto|]. apply (at_pos_W g OK atom MM TM TD _ _ _ _ _ SA1). exists q, sl. eauto.
Qed.
(** ... and a file can be made shorter. *)
Theorem C24_shrink v0 c r0 v i sz b size r v' : MAXCOST g <= RESV g <= NALLOC g ->
  reach v0 -> step v0 (Some (ECall c (Ok r0))) v -> commit_call (v_mask v0) c -> s_ro (v_s v) = false ->
  content v i sz b -> size < sz -> step v (Some (ECall (CTruncate i size) r)) v' -> r = Ok OUnit.
Proof.
  intros HR R0 S0 CC RO F LS S. assert (R : reach v) by (eapply reach_step; eauto).
  destruct (commit_sim g OK atom MM TM TD v0 c r0 v R0 S0 CC) as (W & SA). pose proof (Sim_mnt g OK atom MM TM TD _ _ _ _ _ SA) as MN.
  apply (content_W g OK atom MM TM TD _ _ _ _ _ SA) in F. destruct F as (nl & b' & Wi & _). destruct (Sim_zero g OK atom MM TM TD _ _ _ _ _ _ _ _ _ SA Wi) as (SZM & _).
  assert (NS : r <> Err ENOSPC).
  { destruct SA as ((C0 & D0 & X) & _ & _). pose proof (x_w _ _ _ _ _ _ _ X) as FW. rewrite (set_ro_id false _ RO) in FW.
    assert (AF : s_afree (v_s v) = 0).
    { destruct (commit_x g OK atom MM TM TD v0 c r0 v R0 S0 CC) as (C1 & D1 & W' & X1 & EC). destruct (FSV_Idle g OK _ _ _ _ (x_w _ _ _ _ _ _ _ X1)) as [pm K]. pose proof (k_c K) as KC. cbn [s_c set_ro] in KC. destruct (k_imap K) as [_ IA _]. cbn [s_afree set_ro] in IA. rewrite IA.
      apply count_0. intros x _. unfold afree_blk, cur, com. cbn [s_w s_c set_ro]. rewrite KC, EC. destruct (m_bits C1 x); auto. }
    pose proof (FSV_free _ _ _ _ FW) as FR.
    destruct (core_truncate g OK C0 D0 W (v_s v) i size FW ltac:(lia)) as (r1 & s1 & R1 & E1).
    inversion S; subst. match goal with H : exec _ _ _ _ = _ |- _ => rename H into EX end. cbn [FsVolume.exec] in EX. unfold ounit, omap, RedCoreFileTruncate, pbind at 1 in EX.
    destruct (autocommit T_TRUNCATE (CoreFileTruncate g i size) o1 o2 v) as [[r2 v2] t2] eqn:AC. pose proof (autocommit_first _ _ _ _ _ _ _ _ AC) as AF1. rewrite R1 in AF1. cbn [fst] in AF1.
    assert (r2 <> Err ENOSPC).
    { apply AF1. intros ->. destruct E1 as (_ & [[(? & _)|(? & _)]|(_ & _ & nl1 & sz1 & b1 & Wi1 & LT)]); try discriminate. rewrite Wi in Wi1. injection Wi1 as <- <- <-.
      assert (MX : 1 <= MAXCOST g) by (unfold MAXCOST; destruct (0 <? DINDIR_POINTERS g), (NDIR g <? IE g); lia).
      replace (size <? sz) with true in LT by (symmetry; apply N.ltb_lt; lia). replace (0 <? RESV g) with true in LT by (symmetry; apply N.ltb_lt; lia). cbn [andb] in LT. lia. }
    destruct r2; injection EX as <- _ _; congruence. }
  destruct r as [x|e].
  - destruct (ok_sim g OK atom MM TM TD v _ x v' R S eq_refl) as (? & ? & ? & ? & ? & _ & _ & O). destruct O as (-> & _). auto.
  - exfalso. destruct (err_sim g OK atom MM TM TD v _ e v' R S eq_refl MN) as (W1 & C1 & C2 & ro & mask & SA1 & _ & O).
    assert (ro = false) by (destruct SA1 as (_ & Y & _); congruence). subst ro. destruct O as [(_ & O)|(? & _)]; [|discriminate].
    assert (CT : content v i sz b') by (apply (content_W g OK atom MM TM TD _ _ _ _ _ SA); eauto). apply (content_W g OK atom MM TM TD _ _ _ _ _ SA1) in CT. destruct CT as (nl1 & b1 & E1 & _).
    destruct O as [->|[[(_ & O)|(_ & O)]|(_ & O)]]; try tauto; try lia; try congruence. destruct O as (? & ? & O). congruence.
Qed.

(** When creation, linking or writing fails for lack of space, fewer blocks are free (statvfs) than
    one branch may need, or the directory has as many positions as it can. *)
Definition nearly_full (v : vol) : Prop := exists nb ni, vstat g atom MM TM v (nb, ni) /\ nb < MAXCOST g.
Definition dir_full (v : vol) (p : N) : Prop := forall k, k < DIRENTS_MAX g -> exists nm j, at_pos v p k nm j.
Lemma fbc_stat v : v_mnt v = true -> s_res (v_s v) = false -> FreeBlockCount g (v_s v) < MAXCOST g -> nearly_full v.
Proof using.
  intros MN RS H. unfold FreeBlockCount in H. rewrite RS in H. exists (if RESV g <=? m_free (s_w (v_s v)) then m_free (s_w (v_s v)) - RESV g else 0), (m_freei (s_w (v_s v))). split; [|auto].
  intros o1 o2. cbn [FsVolume.exec fst snd]. unfold omap, pbind, RedCoreVolStat, pret. rewrite MN. cbn [negb]. cbv zeta. repeat f_equal.
  destruct (N.ltb_spec (RESV g) (m_free (s_w (v_s v)))), (N.leb_spec (RESV g) (m_free (s_w (v_s v)))); auto; lia.
Qed.
Lemma nospc_end {A} ev (m : M st A) bad R E o1 o2 v v' t W C (Q : fs -> st -> Prop) : OPS g bad m R E -> ~ bad -> VI g atom v W C -> v_seq v + fst o1 + fst o2 + 2 <= UINT64_MAX ->
  (forall C0 D0 s s', FSV g C0 D0 W s -> WF W -> m s = (Err ENOSPC, s') -> Q W s') ->
  autocommit ev m o1 o2 v = (Err ENOSPC, v', t) -> Q W (v_s v').
Proof.
  intros HO NB HV RM HQ AC. destruct (autocommit_nospc _ _ _ _ _ _ _ AC) as (MN & RO & s1 & R1 & H).
  pose proof HV as (C0 & D0 & X). pose proof (x_w _ _ _ _ _ _ _ X) as FW. rewrite (set_ro_id false _ RO) in FW. pose proof (x_WF _ _ _ _ _ _ _ X) as WFW.
  destruct H as [H|(HVF & AF & v2 & t2 & T1 & s3 & R3 & H)]; rewrite H.
  - eapply HQ; eauto.
  - destruct (core_ok g OK atom bad m R E v W C HO HV RO) as (r & v1 & t1 & CR & MK & SQ & B). unfold core in CR. rewrite R1 in CR. injection CR as <- <- <-. destruct B as [[? _]|(_ & HV1 & RO1 & _)]; [tauto|].
    destruct (transact_ok g OK atom (vset_s s1 v) W C o1 (fun _ => True) HV1) as (v3 & t3 & T2 & HV3 & RO3 & _); auto; [cbn [v_seq vset_s]; lia|].
    rewrite T1 in T2. injection T2 as <- <-. destruct HV3 as (C3 & D3 & X3). pose proof (x_w _ _ _ _ _ _ _ X3) as FW3. rewrite (set_ro_id false) in FW3 by congruence. eapply HQ; eauto.
Qed.
Lemma ro_exec v c o1 o2 v' t : exec c o1 o2 v = (Err ENOSPC, v', t) -> modifies c = true -> v_mnt v = true /\ s_ro (v_s v) = false.
Proof using.
  intros EX MC.
  assert (X : forall A f ev (m : M st A), omap f (autocommit ev m o1 o2) v = (Err ENOSPC, v', t) -> v_mnt v = true /\ s_ro (v_s v) = false).
  { intros A f ev m H. unfold omap, pbind at 1 in H. destruct (autocommit ev m o1 o2 v) as [[[a|e] v2] t2] eqn:AC; [discriminate|]. injection H as -> <- <-. destruct (autocommit_nospc _ _ _ _ _ _ _ AC) as (A1 & A2 & _). auto. }
  destruct c; try discriminate MC; cbn [FsVolume.exec] in EX; unfold ounit, RedCoreCreate, RedCoreLink, RedCoreUnlink, RedCoreRename, RedCoreFileWrite, RedCoreFileTruncate in EX; eapply X; eauto.
Qed.
Lemma VI_res v W C : VI g atom v W C -> s_res (v_s v) = false.
Proof. intros (C0 & D0 & X). destruct (FSV_Idle g OK _ _ _ _ (x_w _ _ _ _ _ _ _ X)) as [pm K]. apply (k_res K). Qed.
Lemma nospc_case v c v' : modifies c = true -> reach v -> step v (Some (ECall c (Err ENOSPC))) v' ->
  exists o1 o2 t W C C' mask, legal c /\ VI g atom v W C /\ v_seq v + fst o1 + fst o2 + 2 <= UINT64_MAX /\ exec c o1 o2 v = (Err ENOSPC, v', t) /\
    Sim v' (Mnt W C' false mask) /\ v_mnt v' = true /\ s_res (v_s v') = false.
Proof.
  intros MC R S. inversion S; subst. match goal with H : exec _ _ _ _ = _ |- _ => rename H into EX end.
  destruct (ro_exec v c _ _ _ _ EX MC) as [MN RO]. match goal with H : room _ _ _ |- _ => rename H into RM end. unfold room in RM.
  destruct (err_sim g OK atom MM TM TD v c ENOSPC v' R S MC MN) as (W & C & C' & ro & mask & SA & SA' & _).
  exists o1, o2, t, W, C, C', mask. split; auto. pose proof SA as (HV & B & _). split; auto. split; [lia|]. split; auto.
  assert (HR : ro = false) by congruence. rewrite HR in *. split; [exact SA'|]. split; [eapply (Sim_mnt g OK atom MM TM TD); eauto|]. destruct SA' as (HV' & _). eapply VI_res; eauto.
Qed.
Theorem C24_nospc v c v' : reach v -> step v (Some (ECall c (Err ENOSPC))) v' ->
  match c with
  | CCreate p _ _ | CLink p _ _ => dir_full v' p \/ nearly_full v'
  | CWrite _ _ _ _ => nearly_full v'
  | _ => True
  end.
Proof.
  intros R S. destruct c; auto; (refine (_ (nospc_case v _ v' _ R S)); [|reflexivity]); intros (o1 & o2 & t & W & C & C' & mask & LG & HV & RM & EX & SA' & MN' & RS');
   cbn [FsVolume.exec] in EX; unfold ounit, omap, RedCoreCreate, RedCoreLink, RedCoreFileWrite in EX; unfold pbind at 1 in EX;
   match type of EX with context[autocommit ?ev ?m ?a ?b v] => destruct (autocommit ev m a b v) as [[[xa|xe] v2] t2] eqn:AC; [discriminate|]; injection EX as -> <- <- end.
  - assert (Q : (forall k, k < DIRENTS_MAX g -> exists nm' j, entry W p k nm' j) \/ FreeBlockCount g (v_s v2) < MAXCOST g).
    { refine (nospc_end _ _ _ _ _ _ _ _ _ _ W C (fun F s => (forall k, k < DIRENTS_MAX g -> exists nm' j, entry F p k nm' j) \/ FreeBlockCount g s < MAXCOST g) (ops_create g OK p nm dir LG) (fun x => x) HV RM _ AC).
      intros C0 D0 s s' HF WFW ER. destruct (core_create g OK C0 D0 W s p nm dir HF WFW LG) as (r1 & s1 & R1 & E1). rewrite ER in R1. injection R1 as <- <-. destruct E1 as (_ & E1). unfold create_err in E1.
      decompose [or and] E1; try discriminate; auto; unfold bad_dir, bad_name in *; intuition discriminate. }
    destruct Q as [Q|Q]; [left|right; apply fbc_stat; auto]. intros k Hk. destruct (Q k Hk) as (nm' & j & E). exists nm', j. apply (at_pos_W g OK atom MM TM TD _ _ _ _ _ SA'). auto.
  - assert (Q : (forall k, k < DIRENTS_MAX g -> exists nm' j, entry W p k nm' j) \/ FreeBlockCount g (v_s v2) < MAXCOST g).
    { refine (nospc_end _ _ _ _ _ _ _ _ _ _ W C (fun F s => (forall k, k < DIRENTS_MAX g -> exists nm' j, entry F p k nm' j) \/ FreeBlockCount g s < MAXCOST g) (ops_link g OK p nm i LG) (fun x => x) HV RM _ AC).
      intros C0 D0 s s' HF WFW ER. destruct (core_link g OK C0 D0 W s p nm i HF WFW LG) as (r1 & s1 & R1 & E1). rewrite ER in R1. injection R1 as <- <-. destruct E1 as (_ & E1). unfold link_err in E1.
      decompose [or and] E1; try discriminate; auto; unfold bad_dir, bad_name in *; intuition discriminate. }
    destruct Q as [Q|Q]; [left|right; apply fbc_stat; auto]. intros k Hk. destruct (Q k Hk) as (nm' & j & E). exists nm', j. apply (at_pos_W g OK atom MM TM TD _ _ _ _ _ SA'). auto.
  - apply fbc_stat; auto.
    refine (nospc_end _ _ _ _ _ _ _ _ _ _ W C (fun F s => FreeBlockCount g s < MAXCOST g) (ops_write g OK i start len src) (fun x => x) HV RM _ AC).
    intros C0 D0 s s' HF WFW ER. assert (DE : (0 < len /\ start < INODE_SIZE_MAX g) \/ ~ (0 < len /\ start < INODE_SIZE_MAX g)) by lia. destruct DE as [[P Q]|NP].
    + destruct (core_write g OK C0 D0 W s i start len src HF P Q) as (r1 & s1 & R1 & E1). rewrite ER in R1. injection R1 as <- <-. destruct E1 as (_ & [[(? & _)|(? & _)]|(_ & E1)]); try discriminate. auto.
    + exfalso. destruct (core_write0 g OK C0 D0 W s i start len src HF NP) as (r1 & s1 & R1 & _ & E1). rewrite ER in R1. injection R1 as <- <-. destruct E1 as [[(? & _)|(? & _)]|(? & _)]; discriminate.
Qed.
Lemma autocommit_okp {A} ev (m : M st A) o1 o2 v a v' t : autocommit ev m o1 o2 v = (Ok a, v', t) -> has (v_mask v) ev = false -> v_mnt v = true /\ s_ro (v_s v) = false /\
  (m (v_s v) = (Ok a, v_s v') \/ exists s1, m (v_s v) = (Err ENOSPC, s1) /\
     exists v2 t2, RedVolTransact o1 (vset_s s1 v) = (Ok tt, v2, t2) /\ m (v_s v2) = (Ok a, v_s v')).
Proof using.
  unfold autocommit, guard. destruct (v_mnt v); cbn [negb]; [|discriminate]. destruct (s_ro (v_s v)); [discriminate|]. intros EX HM. split; auto. split; auto.
  unfold pbind at 1 in EX. unfold pcatch, core in EX. destruct (m (v_s v)) as [r1 s1] eqn:R1.
  destruct r1 as [a1|e].
  - cbn [pret vset_s v_mask] in EX. rewrite HM in EX. cbn in EX. injection EX as -> <- _. left. auto.
  - destruct e; try discriminate EX. cbn [vset_s v_mask v_s] in EX. change (v_mask (vset_s s1 v)) with (v_mask v) in EX.
    destruct (has (v_mask v) T_VOLFULL); cbn [andb] in EX; [|discriminate].
    destruct (0 <? s_afree s1); [|discriminate]. right. exists s1. split; auto.
    unfold pbind at 1 in EX. destruct (RedVolTransact o1 (vset_s s1 v)) as [[[[]|e2] v2] t2] eqn:T1.
    + exists v2, t2. split; auto. destruct (m (v_s v2)) as [[a3|e3] s3] eqn:R3; [|discriminate].
      assert (MK : v_mask v2 = v_mask v).
      { unfold RedVolTransact in T1. destruct (negb (s_br (v_s (vset_s s1 v)))); [injection T1 as <- _; auto|]. destruct (UINT64_MAX <=? _); [discriminate|]. injection T1 as <- _. auto. }
      cbn [pret vset_s v_mask] in EX. rewrite MK, HM in EX. cbn in EX. injection EX as -> <- _. auto.
    + discriminate EX.
Qed.
Lemma okp_end {A} ev (m : M st A) bad R E o1 o2 v a v' t W C (Q : st -> Prop) : OPS g bad m R E -> ~ bad -> VI g atom v W C -> v_seq v + fst o1 + fst o2 + 2 <= UINT64_MAX ->
  has (v_mask v) ev = false -> (forall C0 D0 s s', FSV g C0 D0 W s -> WF W -> m s = (Ok a, s') -> Q s') ->
  autocommit ev m o1 o2 v = (Ok a, v', t) -> Q (v_s v').
Proof.
  intros HO NB HV RM HM HQ AC. destruct (autocommit_okp _ _ _ _ _ _ _ _ AC HM) as (MN & RO & H).
  pose proof HV as (C0 & D0 & X). pose proof (x_w _ _ _ _ _ _ _ X) as FW. rewrite (set_ro_id false _ RO) in FW. pose proof (x_WF _ _ _ _ _ _ _ X) as WFW.
  destruct H as [H|(s1 & R1 & v2 & t2 & T1 & R3)].
  - eapply HQ; eauto.
  - destruct (core_ok g OK atom bad m R E v W C HO HV RO) as (r & v1 & t1 & CR & MK & SQ & B). unfold core in CR. rewrite R1 in CR. injection CR as <- <- <-. destruct B as [[? _]|(_ & HV1 & RO1 & _)]; [tauto|].
    destruct (transact_ok g OK atom (vset_s s1 v) W C o1 (fun _ => True) HV1) as (v3 & t3 & T2 & HV3 & RO3 & _); auto; [cbn [v_seq vset_s]; lia|].
    rewrite T1 in T2. injection T2 as <- <-. destruct HV3 as (C3 & D3 & X3). pose proof (x_w _ _ _ _ _ _ _ X3) as FW3. rewrite (set_ro_id false) in FW3 by congruence. eapply HQ; eauto.
Qed.
(** A write that is short (and was not followed by a transaction point) also leaves a nearly full
    volume, or has reached the largest file size. *)
Theorem C24_short v i start len src n v' : reach v -> step v (Some (ECall (CWrite i start len src) (Ok (ONum n)))) v' -> has (v_mask v) T_WRITE = false ->
  n < len -> start + n = INODE_SIZE_MAX g \/ nearly_full v'.
Proof.
  intros R S HM LT. destruct (ok_sim g OK atom MM TM TD v _ _ v' R S eq_refl) as (W & W' & C & C' & mask & SA & SA' & O).
  inversion S; subst. match goal with H : exec _ _ _ _ = _ |- _ => rename H into EX end. match goal with H : room _ _ _ |- _ => rename H into RM end. unfold room in RM.
  assert (RM2 : v_seq v + fst o1 + fst o2 + 2 <= UINT64_MAX) by lia.
  cbn [FsVolume.exec] in EX. unfold omap, RedCoreFileWrite in EX. unfold pbind at 1 in EX.
  match type of EX with context[autocommit ?ev ?m ?a ?b v] => destruct (autocommit ev m a b v) as [[[xa|xe] v2] t2] eqn:AC; [|discriminate]; injection EX as -> <- _ end.
  assert (Q : start + n = INODE_SIZE_MAX g \/ FreeBlockCount g (v_s v2) < MAXCOST g).
  { refine (okp_end _ _ _ _ _ _ _ _ _ _ _ W C (fun s => start + n = INODE_SIZE_MAX g \/ FreeBlockCount g s < MAXCOST g) (ops_write g OK i start len src) (fun x => x) (proj1 SA) RM2 HM _ AC).
    intros C0 D0 s s' HF WFW ER. assert (DE : (0 < len /\ start < INODE_SIZE_MAX g) \/ ~ (0 < len /\ start < INODE_SIZE_MAX g)) by lia. destruct DE as [[P Q]|NP].
    + destruct (core_write g OK C0 D0 W s i start len src HF P Q) as (r1 & s1 & R1 & E1). rewrite ER in R1. injection R1 as <- <-. destruct E1 as (B & E1 & _).
      destruct (N.ltb_spec n (N.min len (INODE_SIZE_MAX g - start))); [right; auto|left; lia].
    + exfalso. destruct (core_write0 g OK C0 D0 W s i start len src HF NP) as (r1 & s1 & R1 & _ & E1). rewrite ER in R1. injection R1 as <- <-. lia. }
  destruct Q as [Q|Q]; [left; auto|right]. apply fbc_stat; auto; [eapply (Sim_mnt g OK atom MM TM TD); exact SA'|]. eapply VI_res. exact (proj1 SA').
Qed.
End P.
