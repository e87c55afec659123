(** Effects of the path-based calls. *)
From Verif Require Import Base Count FsState FsDir FsSpec FsSpecN FsCoreP2 FsMach FsVolume FsVolumeP FsReach PropFs PropNs Posix PosixSpec PosixWp PosixPath PosixPath2 PosixInv PosixStart PosixCalls.
From Coq Require Import ZArith.
Ltac Zify.zify_post_hook ::= idtac.

(** Handle [k] was set to [h]; nothing else changed. *)
Definition hset (s : pst) (k : N) (h : handle) (s' : pst) : Prop :=
  p_init s' = p_init s /\ p_t s' = p_t s /\ p_gen s' = p_gen s /\ (forall n, p_v s' n = p_v s n) /\ forall j, p_h s' j = if j =? k then h else p_h s j.
(** [path] of task [tid] leads to inode [i] of volume [n], or to an error. *)
Definition at_file (pc : pcfg) (tid : N) (path : str) (s : pst) (r : res (N * N)) : Prop :=
  exists st, starts pc tid path s st /\
    match st with
    | Err e => r = Err e
    | Ok (n, i, l) => r = match vlook pc n (p_v s n) i l with Ok j => Ok (n, j) | Err e => Err e end
    end.
(** ... names the entry [nm] of directory [d] of volume [n]. *)
Definition at_name (pc : pcfg) (tid : N) (path : str) (rooterr : errno) (s : pst) (r : res (N * N * name)) : Prop :=
  exists st, starts pc tid path s st /\
    match st with
    | Err e => r = Err e
    | Ok (n, i, l) => r = match vlook_name pc n rooterr (p_v s n) i l with Ok (d, nm) => Ok (n, d, nm) | Err e => Err e end
    end.
Definition unit_of (o : res out) : res pout := match o with Ok _ => Ok RUnit | Err e => Err e end.

Section Calls2.
Variable pc : pcfg.
Hypothesis PC : pcfg_ok pc.
Set Default Proof Using "PC".
Notation SEP := (SEP pc).
Notation NV := (NV pc).
Notation HC := (HC pc).
Notation TC := (TC pc).
Notation MM := (MMASK pc).
Notation TM := (TMASK pc).
Notation TD := (TDEF pc).
Notation comps := (comps SEP).
Notation VOK := (VOK pc).
Notation VInv := (VInv pc).
Notation PInv := (PInv pc).
Notation wp := (wp pc).
Notation vask := (vask pc).
Notation vdir := (vdir pc).
Notation vfile := (vfile pc).
Notation vstep := (vstep pc).
Notation did := (did pc).
Notation vlook := (vlook pc).
Notation vlook_name := (vlook_name pc).
Notation starts := (starts pc).
Notation Ctx := (Ctx pc).

Lemma hset_Ctx tid s k h s' : Ctx tid s -> k < HC -> (h_ino h <> 0 -> handle_ok pc s h) -> hset s k h s' -> p_cur s' < NV -> Ctx tid s'.
Proof using.
  intros [[A B C D E F G] IN RG] Hk HO (I1 & I3 & I4 & V & HH) CU. split; [|congruence|unfold registered in *; rewrite I3; auto]. split; auto.
  - intros n Hn. rewrite V. auto.
  - intros n Hn. rewrite I4, V. auto.
  - intros _ j Hj X. rewrite HH in *. assert (Y : handle_ok pc s (if j =? k then h else p_h s j)). { destruct (j =? k); auto. }
    unfold handle_ok in *. now rewrite V.
  - rewrite I3. intros Hi j Hj. specialize (E IN j Hj). unfold task_ok in *. now rewrite V.
  - rewrite I3. auto.
  - intros X. exfalso. congruence.
Qed.
Lemma set_h_hset k h s : hset s k h (set_h k h s).
Proof using. repeat split; auto. Qed.
Lemma still_hset s s1 k h s' : still s s1 -> hset s1 k h s' -> hset s k h s'.
Proof using.
  intros ((A & B & C & D) & V) (I1 & I3 & I4 & V' & HH). split; [congruence|]. split; [congruence|]. split; [congruence|]. split; [intros n; rewrite V'; auto|].
  intros j. rewrite HH, B. auto.
Qed.


(** ** Paths *)
Lemma wp_atname tid path e {A} (K : N -> N * name -> PM A) (Q : res A -> pst -> Prop) s : Ctx tid s ->
  (forall er s', Ctx tid s' -> still s s' -> at_name pc tid path e s (Err er) -> Q (Err er) s') ->
  (forall n d nm s', Ctx tid s' -> still s s' -> p_cur s' = n -> n < NV -> v_mnt (p_v s n) = true -> nozero nm -> pname pc nm -> at_name pc tid path e s (Ok (n, d, nm)) -> wp (K n (d, nm)) Q s') ->
  wp (bind (PathStartingPoint pc tid path) (fun sp => let '(vn, cwd, local) := sp in bind (RedPathToName pc cwd local e) (fun pn => K vn pn))) Q s.
Proof.
  intros CX HE HO. apply wp_bind. eapply wp_start; eauto. intros r s1 CX1 ST1 SO. destruct r as [[[n i] local]|er].
  2: { apply HE; auto. exists (Err er). auto. }
  destruct SO as (SS & CU & Hn & NZ & HI & HD). pose proof ST1 as (RS1 & V1). apply wp_bind. eapply wp_toname; eauto; [rewrite CU, V1; auto|].
  intros s2 CX2 SM2 NMS. rewrite CU, V1 in *. pose proof (still_trans _ _ _ ST1 (same_still _ _ SM2)) as ST2. pose proof SM2 as (_ & CU2 & V2).
  destruct (vlook_name n e (p_v s n) i (comps local)) as [[d nm]|er] eqn:EL.
  - destruct (NMS d nm eq_refl) as (MN & NZN & NSN & _). apply HO; auto; [congruence|]. eexists; split; [exact SS|]. cbn. now rewrite EL.
  - apply HE; auto. eexists; split; [exact SS|]. cbn. now rewrite EL.
Qed.
Lemma wp_atfile tid path {A} (K : N -> N -> PM A) (Q : res A -> pst -> Prop) s : Ctx tid s ->
  (forall er s', Ctx tid s' -> still s s' -> at_file pc tid path s (Err er) -> Q (Err er) s') ->
  (forall n j s', Ctx tid s' -> still s s' -> p_cur s' = n -> n < NV -> v_mnt (p_v s n) = true -> vfile n (p_v s n) j \/ vdir n (p_v s n) j -> at_file pc tid path s (Ok (n, j)) -> wp (K n j) Q s') ->
  wp (bind (PathStartingPoint pc tid path) (fun sp => let '(vn, cwd, local) := sp in bind (RedPathLookup pc cwd local) (fun j => K vn j))) Q s.
Proof.
  intros CX HE HO. apply wp_bind. eapply wp_start; eauto. intros r s1 CX1 ST1 SO. destruct r as [[[n i] local]|er].
  2: { apply HE; auto. exists (Err er). auto. }
  destruct SO as (SS & CU & Hn & NZ & HI & HD). pose proof ST1 as (RS1 & V1). apply wp_bind. eapply wp_lookup; eauto; [rewrite CU, V1; auto|].
  intros s2 CX2 SM2 NMS. rewrite CU, V1 in *. pose proof (still_trans _ _ _ ST1 (same_still _ _ SM2)) as ST2. pose proof SM2 as (_ & CU2 & V2).
  destruct (vlook n (p_v s n) i (comps local)) as [j|er] eqn:EL.
  - destruct (NMS j eq_refl) as (MN & FD). apply HO; auto; [congruence|]. eexists; split; [exact SS|]. cbn. now rewrite EL.
  - apply HE; auto. eexists; split; [exact SS|]. cbn. now rewrite EL.
Qed.
(** ** mkdir *)
Definition mkdir_post (tid : N) (path : str) (s : pst) (r : res pout) (s' : pst) : Prop :=
  exists x, at_name pc tid path EEXIST s x /\
    match x with
    | Err e => r = Err e /\ still s s'
    | Ok (n, d, nm) => exists o, did s n (CCreate d nm true) o s' /\ r = unit_of o
    end.
Lemma did_out_num s n c o s' : n < NV -> VOK n (p_v s n) -> did s n c (Ok o) s' -> (exists p nm d, c = CCreate p nm d) \/ (exists i st ln src, c = CWrite i st ln src) -> exists j, o = ONum j.
Proof.
  intros Hn (_ & a & SA & _) (_ & v' & ST & _) H. pose proof (step_sim _ (ok_g _ PC n Hn) _ MM TM TD _ _ _ _ SA ST) as (a' & AS & SA').
  destruct H as [(p & nm & d & ->)|(i & st & ln & src & ->)]; inversion AS; subst; try discriminate;
    match goal with X : op_ok _ _ _ _ _ _ _ |- _ => destruct X as (j & -> & _); eauto end.
Qed.
Lemma do_mkdir tid path s : Ctx tid s -> wp (red_mkdir pc tid path) (fun r s' => Ctx tid s' /\ mkdir_post tid path s r s') s.
Proof.
  intros CX. unfold red_mkdir. eapply (wp_atname tid path EEXIST (fun _ pn => bind (core_num pc (CCreate (fst pn) (snd pn) true)) (fun _ => ret RUnit))); eauto.
  { intros er s' CX' ST AT. split; auto. exists (Err er). auto. }
  intros n d nm s1 CX1 ST1 CU Hn MN NZ NS AT. cbn [fst snd]. apply wp_bind.
  eapply wp_do_num; eauto; [apply harmless_easy; [auto|discriminate|discriminate|discriminate]|].
  intros o s3 CX3 DD CU3. rewrite CU in DD. assert (DD' : did s n (CCreate d nm true) o s3) by (eapply did_still; eauto).
  destruct o as [o|e].
  - destruct (did_out_num s n _ o s3 Hn (x_v _ _ _ CX _ Hn) DD') as (j & ->); [left; eauto|]. cbn. split; auto. exists (Ok (n, d, nm)). split; auto. eexists; split; [exact DD'|auto].
  - split; auto. exists (Ok (n, d, nm)). split; auto. eexists; split; [exact DD'|auto].
Qed.

(** ** unlink, rmdir *)
(** Inode [i] of volume [n] is open, or the working directory of a task. *)
Definition in_use (s : pst) (n i : N) : Prop :=
  (exists k, k < HC /\ h_ino (p_h s k) = i /\ h_vol (p_h s k) = n) \/ (exists k, k < TC /\ t_ino (p_t s k) = i /\ t_vol (p_t s k) = n).
(** ... and has one name only. *)
Definition pinned (s : pst) (n i : N) : Prop := (exists d sz bl, vask n (p_v s n) (CStat i) = Ok (OStat (d, 1, sz, bl))) /\ in_use s n i.
Lemma wp_unlinkcheck tid i (Q : res unit -> pst -> Prop) s : Ctx tid s -> v_mnt (p_v s (p_cur s)) = true -> (vfile (p_cur s) (p_v s (p_cur s)) i \/ vdir (p_cur s) (p_v s (p_cur s)) i) ->
  (forall s', Ctx tid s' -> same s s' -> ~ pinned s (p_cur s) i -> Q (Ok tt) s') ->
  (forall s', Ctx tid s' -> same s s' -> pinned s (p_cur s) i -> Q (Err EBUSY) s') -> wp (InodeUnlinkCheck pc i) Q s.
Proof.
  intros CX MN EX H1 H2. unfold InodeUnlinkCheck. apply wp_bind. eapply wp_stat; eauto. intros s1 CX1 SM1.
  assert (EA : exists d nl sz bl, vask (p_cur s) (p_v s (p_cur s)) (CStat i) = Ok (OStat (d, nl, sz, bl))).
  { destruct EX as [(a & b & c & E)|(a & b & c & E)]; do 4 eexists; exact E. }
  destruct EA as (d & nl & sz & bl & EA). unfold vstat4. rewrite EA. unfold st_nlink. cbn [fst snd].
  destruct (N.eqb_spec nl 1) as [->|N1]; cbn [negb].
  2: { apply wp_ret. apply H1; auto. intros ((d' & sz' & bl' & E) & _). congruence. }
  assert (PN : in_use s (p_cur s) i -> pinned s (p_cur s) i) by (intros; split; eauto).
  pose proof SM1 as ((I1 & I2 & I3 & I4) & CU & V). apply wp_bind. eapply wp_Act; eauto. cbn [fst snd]. rewrite I2, CU.
  destruct (first (fun k => (h_ino (p_h s k) =? i) && (h_vol (p_h s k) =? p_cur s)) HC) as [k|] eqn:EF.
  { apply first_some in EF as [F1 F2]. apply andb_true_iff in F2 as [F2 F3]. apply N.eqb_eq in F2, F3. apply H2; auto. apply PN. left. eauto. }
  eapply wp_Act; eauto. cbn [fst snd]. rewrite I3, CU.
  destruct (first (fun k => (t_ino (p_t s k) =? i) && (t_vol (p_t s k) =? p_cur s)) TC) as [k|] eqn:EG.
  { apply first_some in EG as [F1 F2]. apply andb_true_iff in F2 as [F2 F3]. apply N.eqb_eq in F2, F3. apply H2; auto. apply PN. right. eauto. }
  apply H1; auto. intros (_ & [(k & A & B & C)|(k & A & B & C)]).
  - pose proof (first_none _ _ EF k A) as X. cbn in X. rewrite B, C, !N.eqb_refl in X. discriminate.
  - pose proof (first_none _ _ EG k A) as X. cbn in X. rewrite B, C, !N.eqb_refl in X. discriminate.
Qed.
Definition unlink_post (tid : N) (path : str) (ty : ftype) (s : pst) (r : res pout) (s' : pst) : Prop :=
  exists x, at_name pc tid path EBUSY s x /\
    match x with
    | Err e => r = Err e /\ still s s'
    | Ok (n, d, nm) =>
      match vask n (p_v s n) (CLookup d nm) with
      | Err e => r = Err e /\ still s s'
      | Ok (ONum j) =>
        (r = Err ENOTDIR /\ still s s' /\ ty = FTYPE_DIR /\ vfile n (p_v s n) j) \/
        (r = Err EBUSY /\ still s s' /\ pinned s n j) \/
        (r = Err EISDIR /\ still s s' /\ ty = FTYPE_FILE /\ vdir n (p_v s n) j) \/
        ((ty = FTYPE_DIR -> vdir n (p_v s n) j) /\ (ty = FTYPE_FILE -> vfile n (p_v s n) j) /\ ~ pinned s n j /\ exists o, did s n (CUnlink d nm) o s' /\ r = unit_of o)
      | _ => False
      end
    end.
Lemma look_num n v W C ro mask d nm : n < NV -> vsim pc n v (Mnt W C ro mask) -> nozero nm -> match vask n v (CLookup d nm) with Ok (ONum _) => True | Ok _ => False | Err _ => True end.
Proof.
  intros Hn SA NZ. pose proof (vask_ok pc PC n v W C ro mask (CLookup d nm) Hn SA eq_refl NZ) as X. destruct (vask n v (CLookup d nm)) as [[]|]; auto.
Qed.
(** A pinned inode is not removed. *)
Lemma harmless_vic tid s c d nm : Ctx tid s -> victim c = Some (d, nm) -> c <> CRollback -> c <> CUnmount -> (forall f, c <> CMount f) -> nozero nm ->
  (forall j, vask (p_cur s) (p_v s (p_cur s)) (CLookup d nm) = Ok (ONum j) -> ~ pinned s (p_cur s) j) -> harmless pc s c.
Proof.
  intros CX VC A B C NZ NP. split; [auto|]. split; [auto|]. split; [auto|]. intros p nm' i EV MN LK RF. rewrite VC in EV. injection EV as <- <-.
  pose proof (x_cur _ _ _ CX) as HN. pose proof (x_v _ _ _ CX _ HN) as HV. specialize (NP i LK).
  destruct (VOK_W pc PC _ _ HN HV MN) as (W & C' & SA & _).
  destruct (J_look pc PC _ _ d nm i HN HV MN NZ LK) as (HJ & _ & _). apply J_exists in HJ.
  assert (IU : in_use s (p_cur s) i) by (destruct RF as [(k & X1 & X2 & _ & X3)|(k & X1 & X2 & X3)]; [left|right]; eauto).
  assert (NL : forall dd nl sz bl, vask (p_cur s) (p_v s (p_cur s)) (CStat i) = Ok (OStat (dd, nl, sz, bl)) -> nl <> 1).
  { intros dd nl sz bl E ->. apply NP. split; eauto. }
  pose proof (vask_ok pc PC _ _ _ _ _ _ (CStat i) HN SA eq_refl I) as RD. cbn in RD.
  destruct HJ as [(nl & sz & bl & E)|(nl & sz & bl & E)]; specialize (NL _ _ _ _ E).
  - exists nl, sz, bl. split; auto.
  - exfalso. unfold PosixWp.vask in RD. rewrite E in RD. destruct RD as [(_ & X & _)|(X & _)]; [tauto|discriminate].
Qed.
Lemma did_unit_ok s n c o s' (R : res pout) : did s n c o s' -> R = unit_of o -> exists o, did s n c o s' /\ R = unit_of o.
Proof using. eauto. Qed.
Lemma do_unlinksub tid path ty s : Ctx tid s -> wp (UnlinkSub pc tid path ty) (fun r s' => Ctx tid s' /\ unlink_post tid path ty s (match r with Ok _ => Ok RUnit | Err e => Err e end) s') s.
Proof.
  intros CX. unfold UnlinkSub. eapply (wp_atname tid path EBUSY (fun _ pn => bind (core_num pc (CLookup (fst pn) (snd pn))) (fun i => bind (match ty with FTYPE_EITHER => ret tt | _ => bind (core_stat pc i) (fun st => ModeTypeCheck (st_dir st) ty) end) (fun _ => bind (InodeUnlinkCheck pc i) (fun _ => core_unit pc (CUnlink (fst pn) (snd pn))))))); eauto.
  { intros er s' CX' ST AT. split; auto. exists (Err er). auto. }
  intros n d nm s1 CX1 ST1 CU Hn MN NZ NS AT. cbn [fst snd]. pose proof ST1 as (RS1 & V1). pose proof (x_v _ _ _ CX _ Hn) as HV.
  destruct (VOK_W pc PC _ _ Hn HV MN) as (W & C' & SA & _). pose proof (look_num n _ _ _ _ _ d nm Hn SA NZ) as LN.
  apply wp_bind. eapply wp_ask; eauto. intros s2 CX2 SM2. rewrite CU, V1.
  assert (MK : forall R s', match vask n (p_v s n) (CLookup d nm) with
      | Err e => R = Err e /\ still s s'
      | Ok (ONum j) => (R = Err ENOTDIR /\ still s s' /\ ty = FTYPE_DIR /\ vfile n (p_v s n) j) \/ (R = Err EBUSY /\ still s s' /\ pinned s n j) \/ 
         (R = Err EISDIR /\ still s s' /\ ty = FTYPE_FILE /\ vdir n (p_v s n) j) \/
        ((ty = FTYPE_DIR -> vdir n (p_v s n) j) /\ (ty = FTYPE_FILE -> vfile n (p_v s n) j) /\ ~ pinned s n j /\ exists o, did s n (CUnlink d nm) o s' /\ R = unit_of o)
      | _ => False end -> unlink_post tid path ty s R s').
  { intros R s' H. exists (Ok (n, d, nm)). split; auto. }
  pose proof (still_trans _ _ _ ST1 (same_still _ _ SM2)) as ST2. pose proof SM2 as (_ & CU2 & V2).
  destruct (vask n (p_v s n) (CLookup d nm)) as [[]|e] eqn:EL; try contradiction.
  2: { split; auto. }
  rename n0 into j. apply wp_bind.
  destruct (J_look pc PC _ _ d nm j Hn HV MN NZ EL) as (HJ & _ & _). apply J_exists in HJ.
  assert (REST : forall s3, Ctx tid s3 -> still s s3 -> p_cur s3 = n -> (ty = FTYPE_DIR -> vdir n (p_v s n) j) -> (ty = FTYPE_FILE -> vfile n (p_v s n) j) ->
    wp (bind (InodeUnlinkCheck pc j) (fun _ => core_unit pc (CUnlink d nm))) (fun r s' => Ctx tid s' /\ unlink_post tid path ty s (match r with Ok _ => Ok RUnit | Err e => Err e end) s') s3).
  { intros s3 CX3 ST3 CU3 TY1 TY2. pose proof ST3 as ((R1 & R2 & R3 & R4) & V3). apply wp_bind.
    assert (PE : forall i, pinned s3 n i <-> pinned s n i) by (intros i; unfold pinned, in_use; rewrite V3, R2, R3; tauto).
    eapply wp_unlinkcheck; eauto; [rewrite CU3, V3; auto|rewrite CU3, V3; auto| |].
    - intros s4 CX4 SM4 NP. rewrite CU3 in NP. pose proof SM4 as ((Q1 & Q2 & Q3 & Q4) & CU4 & V4).
      assert (PE4 : forall i, pinned s4 n i <-> pinned s n i) by (intros i; rewrite <- PE; unfold pinned, in_use; rewrite V4, Q2, Q3; tauto).
      eapply wp_do_unit; eauto; [|].
      + eapply harmless_vic; eauto; try discriminate; [reflexivity|]. rewrite CU4, CU3, V4, V3. intros j' E. rewrite EL in E. injection E as <-. rewrite PE4, <- PE. auto.
      + intros r s5 CX5 DD CU5. split; auto. apply MK. right; right; right. split; auto. split; auto. split; [rewrite <- PE; auto|]. rewrite CU4, CU3 in DD. exists r. split; [|destruct r; auto].
        eapply did_still; [|exact DD]. eapply still_trans; [exact ST3|]. now apply same_still.
    - intros s4 CX4 SM4 NP. rewrite CU3 in NP. split; auto. apply MK. right; left. split; auto. split; [eapply still_trans; [exact ST3|now apply same_still]|]. now apply PE. }
  assert (STEP : wp (bind (core_stat pc j) (fun st => ModeTypeCheck (st_dir st) ty)) (fun (r : res unit) s3 => Ctx tid s3 /\ still s s3 /\ p_cur s3 = n /\ 
      match r with Ok _ => (ty = FTYPE_DIR -> vdir n (p_v s n) j) /\ (ty = FTYPE_FILE -> vfile n (p_v s n) j) 
      | Err e => (e = ENOTDIR /\ ty = FTYPE_DIR /\ vfile n (p_v s n) j) \/ (e = EISDIR /\ ty = FTYPE_FILE /\ vdir n (p_v s n) j) end) s2).
  { apply wp_bind. eapply wp_stat; eauto. intros s3 CX3 SM3. rewrite CU2, CU, V2, V1. pose proof SM3 as (_ & CU3 & V3).
    assert (ST3 : still s s3) by (eapply still_trans; [exact ST2|now apply same_still]). assert (CUN : p_cur s3 = n) by congruence.
    destruct HJ as [HF|HD].
    - destruct (vstat4_file pc _ _ _ HF) as (x & EX & DX). rewrite EX. unfold ModeTypeCheck. rewrite DX. destruct ty; cbn; (split; [auto|]; split; [auto|]; split; [auto|]; auto); [split; [discriminate|auto]|split; discriminate].
    - destruct (vstat4_dir pc _ _ _ HD) as (x & EX & DX). rewrite EX. unfold ModeTypeCheck. rewrite DX. destruct ty; cbn; (split; [auto|]; split; [auto|]; split; [auto|]; auto); [split; [auto|discriminate]|split; discriminate]. }
  assert (FIN : forall (r : res unit) s3, Ctx tid s3 /\ still s s3 /\ p_cur s3 = n /\ 
      match r with Ok _ => (ty = FTYPE_DIR -> vdir n (p_v s n) j) /\ (ty = FTYPE_FILE -> vfile n (p_v s n) j) 
      | Err e => (e = ENOTDIR /\ ty = FTYPE_DIR /\ vfile n (p_v s n) j) \/ (e = EISDIR /\ ty = FTYPE_FILE /\ vdir n (p_v s n) j) end ->
     match r with Ok _ => wp (bind (InodeUnlinkCheck pc j) (fun _ => core_unit pc (CUnlink d nm))) (fun r s' => Ctx tid s' /\ unlink_post tid path ty s (match r with Ok _ => Ok RUnit | Err e => Err e end) s') s3
     | Err e => Ctx tid s3 /\ unlink_post tid path ty s (Err e) s3 end).
  { intros [u|e] s3 (CX3 & ST3 & CU3 & X); [apply REST; tauto|]. split; auto. apply MK. destruct X as [(-> & A & B)|(-> & A & B)]; [left|right; right; left]; auto. }
  destruct ty.
  - eapply wp_conseq; [exact STEP|]. intros a s3 H. specialize (FIN a s3 H). destruct a; auto.
  - eapply wp_conseq; [exact STEP|]. intros a s3 H. specialize (FIN a s3 H). destruct a; auto.
  - apply wp_ret. apply REST; auto; try discriminate. congruence.
Qed.
End Calls2.
