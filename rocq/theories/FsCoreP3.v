(** Unlinking and renaming: core.c against FsSpec.v. *)
From Coq Require Import Permutation.
From Verif Require Import Base Count FsState FsImap FsInode FsData FsTree FsImapProof FsWp FsInv FsStep FsSeek FsBranch FsRead FsWrite FsWrite2 FsVol FsVol2 FsVol3 FsVol4 FsDir FsDirP FsDirP2 FsDirP3 FsCore FsSpec FsSpecP FsCoreP FsCoreP2.
Ltac Zify.zify_post_hook ::= idtac.

(** * Facts about well-formed trees *)
Lemma no_self F p k nm : WF F -> ~ entry F p k nm p.
Proof.
  intros W E. destruct (wf_ent F W _ _ _ _ E) as [_ R].
  assert (D : isdir F p) by (eapply entry_dir; eauto). destruct D as (q & sl & D).
  destruct (wf_dir F W _ _ _ D R) as (k' & nm' & _ & U). destruct (U _ _ _ E) as [<- _].
  assert (X : forall i, Reach F i -> par F i = Some i -> i = ROOT).
  { apply (Reach_ind' F (fun i => par F i = Some i -> i = ROOT)); auto. intros i p' E' _ IH E2. rewrite E' in E2. injection E2 as ->. auto. }
  apply R, X; [apply W; exists p, sl; auto|]. apply par_spec. eauto.
Qed.
Lemma Below_root F i : WF F -> i <> 0 -> Below F i ROOT -> i = ROOT.
Proof.
  intros W N B. inversion B as [|? p sl E B2]; auto. subst. destruct (wf_root F W) as [sl' E']. rewrite E in E'. injection E' as -> _.
  inversion B2 as [|? p sl2 E2 B3]; subst; [congruence|]. rewrite (wf_none F W) in E2. discriminate.
Qed.
Lemma Below_step F a i p : par F i = Some p -> i <> a -> Below F a i -> Below F a p.
Proof. intros E N B. inversion B as [|? q sl E' B']; subst; [congruence|]. apply par_spec in E. destruct E as [s E]. rewrite E in E'. injection E' as <- _. auto. Qed.

(** Distance from the root. *)
Inductive Dist (F : fs) : nat -> N -> Prop :=
| D_root : Dist F 0 ROOT
| D_step n i p : i <> ROOT -> par F i = Some p -> Dist F n p -> Dist F (S n) i.
Lemma Reach_Dist F i : Reach F i -> exists n, Dist F n i.
Proof.
  revert i. apply Reach_ind'; [exists 0%nat; constructor|]. intros i p E _ [n IH].
  destruct (N.eq_dec i ROOT) as [->|N]; [exists 0%nat; constructor|]. exists (S n). econstructor; eauto.
Qed.
Lemma Dist_fun F n i : Dist F n i -> forall m, Dist F m i -> n = m.
Proof.
  induction 1 as [|n i p N E D IH]; intros m H; inversion H; subst; auto; try congruence.
  f_equal. apply IH. congruence.
Qed.
Lemma Dist_list F n i : Dist F n i -> (forall j, isdir F j -> 2 <= j) -> isdir F ROOT ->
  exists L, NoDup L /\ length L = S n /\ (forall j, In j L -> isdir F j /\ exists m, (m <= n)%nat /\ Dist F m j).
Proof.
  intros D V R. induction D as [|n i p N E D IH].
  - exists [ROOT]. split; [constructor; auto; constructor|]. split; auto. intros j [<-|[]]. split; auto. exists 0%nat. split; auto. constructor.
  - destruct IH as (L & ND & LE & A). exists (i :: L). split; [|split].
    + constructor; auto. intros X. destruct (A i X) as (_ & m & M & Dm). assert (Q : Dist F (S n) i) by (econstructor; eauto). pose proof (Dist_fun F _ _ Q _ Dm). lia.
    + cbn. lia.
    + intros j [<-|X]; [split; [apply isdir_par; eauto|exists (S n); split; auto; econstructor; eauto]|]. destruct (A j X) as (Y & m & M & Dm). split; auto. exists m. split; auto.
Qed.
Lemma Dist_bound F n i c : WF F -> (forall j, isdir F j -> 2 <= j < 2 + c) -> Dist F n i -> N.of_nat n < c.
Proof.
  intros W V D. destruct (Dist_list F n i D) as (L & ND & LE & A).
  { intros j H. apply V; auto. } { destruct (wf_root F W) as [sl E]. exists 0, sl; auto. }
  assert (I : incl L (map N.of_nat (seq 2 (N.to_nat c)))).
  { intros j Hj. destruct (A j Hj) as [Dj _]. destruct (V j Dj). apply in_map_iff. exists (N.to_nat j). split; [lia|]. apply in_seq. lia. }
  pose proof (NoDup_incl_length ND I) as X. rewrite map_length, seq_length in X. lia.
Qed.

Section CoreP3.
Variable g : cfg.
Hypothesis OK : cfg_ok g.
Set Default Proof Using "OK".
Notation FBC := (FreeBlockCount g).
Notation DirRep := (DirRep g).
Notation REP := (REP g).

Lemma REP_slot V F p q sl a' n' k v : REP V F -> F p = Some (ADir q sl) -> DirRep a' n' (upd sl k v) -> a_nlink a' = 1 -> a_pino a' = q ->
  REP (upd V p (Some a')) (set_slot F p k v).
Proof. intros HR Fp D NL PI. rewrite (set_slot_eq g OK F p q sl) by auto. apply (REP_upd g OK); auto. eapply RN_dir; eauto. Qed.
Lemma REP_ext V F F' : (forall i, F' i = F i \/ exists p sl sl', F i = Some (ADir p sl) /\ F' i = Some (ADir p sl') /\ forall k, sl' k = sl k) -> REP V F -> REP V F'.
Proof.
  intros E H i. specialize (H i). destruct (E i) as [->|(p & sl & sl' & A & B & C)]; auto. rewrite A in H. rewrite B. destruct (V i) as [a|]; cbn in *; auto.
  destruct H as (H1 & H2 & n & H3). split; auto. split; auto. exists n. eapply (DirRep_ext g OK); [|exact H3]. intros; symmetry; auto.
Qed.
(** Writing back what was in a slot. *)
Lemma slot_back F p k v w : isdir F p -> (forall q sl, F p = Some (ADir q sl) -> sl k = w) ->
  forall i, F i = set_slot (set_slot F p k v) p k w i \/
    exists q sl sl', set_slot (set_slot F p k v) p k w i = Some (ADir q sl) /\ F i = Some (ADir q sl') /\ forall k, sl' k = sl k.
Proof.
  intros (q & sl & E) H i. rewrite (set_slot_eq g OK F p q sl) by auto.
  rewrite (set_slot_eq g OK _ p q (upd sl k v)) by apply upd_same. destruct (N.eq_dec i p) as [->|N].
  - right. exists q, (upd (upd sl k v) k w), sl. rewrite upd_same. split; auto. split; auto. intros l. unfold upd. destruct (N.eqb_spec l k) as [->|]; auto. apply (H q sl); auto.
  - left. rewrite !upd_other; auto.
Qed.

Variables (C0 : mroot) (D0 : N -> blk).
Notation VOL := (VOL g C0 D0).
Notation FSV := (FSV g C0 D0).

Lemma VOL_perm R0 V os os' s : Permutation os os' -> VOL R0 V os s -> VOL R0 V os' s.
Proof.
  intros P (pm & A & B & C & D). exists pm. split; auto. split; auto. split.
  - intros o Ho. apply C. eapply Permutation_in; [apply Permutation_sym; exact P|auto].
  - eapply Permutation_NoDup; [apply Permutation_map; exact P|exact D].
Qed.
Lemma VOL_nil R0 V os s : VOL R0 V os s -> VOL R0 V [] s.
Proof. induction os; auto. intros H. apply IHos. eapply (VOL_drop g OK); eauto. Qed.

Lemma mount_any R0 V F os s i br : VOL R0 V os s -> REP V F -> ~ In i (map oino os) -> F i <> None ->
  exists a c s', V i = Some a /\ RedInodeMount g i FTYPE_EITHER br s = (Ok c, s') /\ VOL R0 V ((true, c) :: os) s' /\ c_ino c = i /\ c_dirty c = br /\
    c_dir c = a_dir a /\ (br = false -> s' = s) /\ m_free (s_w s') = m_free (s_w s).
Proof.
  intros HV HR NI Fi. pose proof (vol_mount g OK C0 D0 R0 V os s i FTYPE_EITHER br HV NI) as X. destruct (V i) as [a|] eqn:Va.
  - exists a. destruct (a_dir a); destruct X as (c & s' & X1 & X2 & X3 & X4 & X5 & X6 & X7 & X8); exists c, s'; repeat (split; auto).
  - destruct Fi. eapply (REP_none' g OK); eauto.
Qed.

(** RedInodeLinkDec removes one name. *)
Lemma linkdec_unname R0 V F c os s : VOL R0 V ((true, c) :: os) s -> REP V F ->
  exists V' s' c', RedInodeLinkDec g (s, c) = (Ok tt, (s', c')) /\ VOL R0 V' [] s' /\ REP V' (unname F (c_ino c)).
Proof.
  intros HV HR. destruct (vol_linkdec g OK C0 D0 R0 V c os s HV) as (a & s' & c' & Va & R & X). pose proof (HR (c_ino c)) as HI. rewrite Va in HI.
  unfold unname. destruct (F (c_ino c)) as [[nl sz b|p sl]|]; cbn in HI; [| |tauto].
  - destruct HI as (A & B & C & D). rewrite <- B. destruct (1 <? a_nlink a) eqn:L.
    + eexists _, s', c'. split; [exact R|]. split; [eapply VOL_nil; exact X|]. apply (REP_upd g OK); auto. cbn. auto.
    + eexists _, s', c'. split; [exact R|]. split; [eapply VOL_nil; exact X|]. apply (REP_del g OK); auto.
  - destruct HI as (A & B & n & D). rewrite B in X. change (1 <? 1) with false in X.
    eexists _, s', c'. split; [exact R|]. split; [eapply VOL_nil; exact X|]. apply (REP_del g OK); auto.
Qed.

(** * Unlinking *)
Definition unlink_err (F : fs) (p : N) (nm : name) (s : st) (e : errno) : Prop :=
  bad_dir F p e \/ bad_name (NMAX g) nm e \/ e = ENOENT /\ isdir F p /\ (forall i, ~ named F p nm i) \/
  e = ENOTEMPTY /\ (exists i, named F p nm i /\ isdir F i /\ ~ empty_dir F i) \/
  e = ENOSPC /\ (exists i, named F p nm i /\ (isdir F i -> empty_dir F i)) /\ (if 0 <? RESV g then m_free (s_w s) < MAXCOST g else FBC s < MAXCOST g).

Theorem core_unlink F s p nm : FSV F s -> WF F -> nozero nm ->
  exists r s', CoreUnlink g p nm s = (r, s') /\
    match r with
    | Ok _ => exists F', op_unlink F p nm F' /\ FSV F' s'
    | Err e => FSV F s' /\ unlink_err F p nm s e
    end.
Proof.
  intros (V & HV & HR) W NZ. unfold CoreUnlink. rewrite (VOL_ro g OK C0 D0 _ _ _ _ HV).
  destruct (mount_dir g OK C0 D0 false V F [] s p false HV HR (fun x => x)) as [(e & BD & RN)|(q & sl & a & n & c & s1 & Fp & Va & DR & PI & NL & R1 & HV1 & CI & CD & CB & SS & _)].
  { exists (Err e), s. split; [unfold bind at 1; now rewrite RN|]. split; [exists V; auto|]. left. auto. }
  rewrite (SS eq_refl) in *. clear SS s1. rewrite (bind_ok _ _ _ _ _ R1).
  destruct (vol_lookup g OK C0 D0 false V c [] s nm a n sl HV1 CD ltac:(congruence) DR NZ) as (r & c2 & R2 & CS & HV2 & LR).
  rewrite (bind_ok _ _ _ _ _ (runc_run _ _ _ _ _ _ R2)). cbv beta iota. unfold lookup_res in LR.
  assert (FS0 : FSV F s) by (exists V; auto).
  destruct (N.eqb_spec (nlen nm) 0) as [Z|Z]. { subst r. exists (Err EINVAL), s. split; [reflexivity|]. split; auto. right. left. left. auto. }
  destruct (N.ltb_spec (NMAX g) (nlen nm)) as [L|L]. { subst r. exists (Err ENAMETOOLONG), s. split; [reflexivity|]. split; auto. right. left. right. auto. }
  destruct LR as [(k & i & E & ->)|(NM & f & -> & _)].
  2:{ exists (Err ENOENT), s. split; [reflexivity|]. split; auto. right. right. left. split; auto. split; [exists q, sl; auto|].
      intros i (k & q' & sl' & E & E'). rewrite Fp in E. injection E as <- <-. exact (NM _ _ E'). }
  assert (EN : entry F p k nm i) by (exists q, sl; auto).
  assert (Nip : i <> p) by (intros ->; exact (no_self F p k nm W EN)).
  destruct (wf_ent F W _ _ _ _ EN) as [Fi Ri].
  destruct (csame_facts g OK _ _ CS) as (I2 & _ & Dir2 & _).
  destruct (vol_branch g OK C0 D0 false _ _ _ _ _ HV2) as (s3 & c3 & R3 & HV3 & Dt3 & I3 & _ & Dir3 & MF3 & _).
  rewrite (bind_ok _ _ _ _ _ (runc_run _ _ _ _ _ _ R3)). cbv beta iota.
  destruct (mount_any false V F [(true, c3)] s3 i false HV3 HR) as (ai & ci & s4 & Vi & R4 & HV4 & CI4 & CD4 & Dir4 & SS & _).
  { cbn. intros [X|[]]. unfold oino in X. cbn in X. congruence. } { exact Fi. }
  rewrite (SS eq_refl) in *. clear SS s4. rewrite (bind_ok _ _ _ _ _ R4).
  destruct (VOL_V g OK _ _ _ _ _ _ _ _ HV4) as (ai' & Vi' & SZ & _). rewrite CI4 in Vi'. assert (ai' = ai) by congruence. subst ai'.
  rewrite Dir4, <- SZ.
  (* emptiness *)
  assert (EMP : a_dir ai && (0 <? a_size ai) = true <-> isdir F i /\ ~ empty_dir F i).
  { pose proof (HR i) as HI. rewrite Vi in HI. destruct (F i) as [[nl sz b|pp si]|] eqn:Ei; cbn in HI; [| |tauto].
    - destruct HI as (A & _). rewrite A. cbn. split; [discriminate|]. intros [(? & ? & X) _]. congruence.
    - destruct HI as (_ & _ & ni & DRi). rewrite (dr_dir _ _ _ _ DRi). cbn [andb]. pose proof (empty_size g OK V F i ai ni si pp HR Ei Vi DRi) as ES.
      rewrite N.ltb_lt. split.
      + intros X. split; [exists pp, si; auto|]. intros Y. apply ES in Y. lia.
      + intros [_ Y]. destruct (N.eq_dec (a_size ai) 0) as [X|X]; [apply ES in X; contradiction|lia]. }
  assert (FS3 : FSV F s3) by (exists V; split; auto; eapply VOL_nil; exact HV3).
  destruct (a_dir ai && (0 <? a_size ai)) eqn:ET.
  { exists (Err ENOTEMPTY), s3. split; [reflexivity|]. split; auto. do 3 right. left. split; auto. exists i. split; [exists k; auto|]. apply EMP; auto. }
  assert (EM : isdir F i -> empty_dir F i).
  { intros D. pose proof (HR i) as HI. rewrite Vi in HI. destruct D as (pp & si & Ei). rewrite Ei in HI. destruct HI as (_ & _ & ni & DRi).
    apply (empty_size g OK V F i ai ni si pp HR Ei Vi DRi). rewrite (dr_dir _ _ _ _ DRi) in ET. cbn [andb] in ET. apply N.ltb_ge in ET. lia. }
  destruct (VOL_use g OK C0 D0 true _ _ _ HV4) as (s5 & R5 & HV5 & W5). rewrite (bind_ok _ _ _ _ _ R5). cbn [andb] in HV5.
  apply (VOL_swap g OK) in HV5.
  destruct (vol_dirdelete g OK C0 D0 _ V c3 [(true, ci)] s5 k a n sl nm i HV5 Dt3) as (c6 & s6 & CI6 & X); try congruence; try exact DR; try exact E.
  destruct X as [(R6 & HV6 & FB & _)|(R6 & a' & n' & b' & HV6 & DR' & NL' & PI')]; rewrite (bind_ok _ _ _ _ _ (runc_run _ _ _ _ _ _ R6)); cbv beta iota.
  - destruct (VOL_unuse g OK C0 D0 true V _ s6 HV6) as (s7 & R7 & HV7 & _). rewrite (bind_ok _ _ _ _ _ R7).
    exists (Err ENOSPC), s7. split; [reflexivity|]. split; [exists V; split; auto; eapply VOL_nil; exact HV7|]. do 4 right. split; auto. split; [exists i; split; [exists k; auto|exact EM]|].
    rewrite (VOL_FBC g OK C0 D0 _ _ _ _ HV5) in FB. rewrite (VOL_FBC g OK C0 D0 _ _ _ _ HV). rewrite W5, MF3 in FB. destruct (0 <? RESV g); exact FB.
  - destruct (VOL_unuse g OK C0 D0 true _ _ s6 HV6) as (s7 & R7 & HV7 & _). rewrite (bind_ok _ _ _ _ _ R7).
    replace (c_ino c3) with p in * by congruence. apply (VOL_swap g OK) in HV7.
    assert (HR7 : REP (upd V p (Some a')) (set_slot F p k None)) by (eapply REP_slot; eauto; congruence).
    destruct (linkdec_unname false _ _ _ _ _ HV7 HR7) as (V8 & s8 & c8 & R8 & HV8 & HR8). rewrite CI4 in HR8.
    exists (Ok tt), s8. split.
    + unfold critical_assert. rewrite (finish_run _ _ _ _ _ _ R8). reflexivity.
    + eexists. split; [exists k, i; split; [exact EN|split; [exact EM|reflexivity]]|]. exists V8. auto.
Qed.
End CoreP3.
