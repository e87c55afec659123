(** Effects of the calls on volumes: mount, unmount, format, transaction points, sync. *)
From Verif Require Import Base Count FsState FsDir FsSpec FsSpecN FsCoreP2 FsMach FsVolume FsVolumeP FsReach PropFs PropNs Posix PosixSpec PosixWp PosixPath PosixPath2 PosixInv PosixStart PosixCalls PosixCalls2 PosixCalls3 PosixCalls4 PosixCalls5.
From Coq Require Import ZArith.
Ltac Zify.zify_post_hook ::= idtac.

(** Mount generations are 1 to 2047 and start again at 1. *)
Definition next_gen (x : N) : N := if 2047 <? x + 1 then 1 else x + 1.

Section Calls6.
Variable pc : pcfg.
Hypothesis PC : pcfg_ok pc.
Set Default Proof Using "PC".
Notation SEP := (SEP pc).
Notation NV := (NV pc).
Notation HC := (HC pc).
Notation TC := (TC pc).
Notation MM := (MMASK pc).
Notation TM := (TMASK pc).
Notation TD := (TDEF pc).
Notation VOK := (VOK pc).
Notation VInv := (VInv pc).
Notation PInv := (PInv pc).
Notation wp := (wp pc).
Notation vask := (vask pc).
Notation vdir := (vdir pc).
Notation vfile := (vfile pc).
Notation vstep := (vstep pc).
Notation did := (did pc).
Notation Ctx := (Ctx pc).

Lemma wp_vol tid path (Q : res N -> pst -> Prop) s : Ctx tid s ->
  (forall n s', Ctx tid s' -> still s s' -> p_cur s' = n -> n < NV -> volume_path pc path (Ok n) -> Q (Ok n) s') ->
  (forall e s', Ctx tid s' -> still s s' -> volume_path pc path (Err e) -> Q (Err e) s') -> wp (RedPathVolumeLookup pc path) Q s.
Proof.
  intros CX H1 H2. apply (wp_VolLookup pc PC); [apply CX|]. intros r s' V ST CU VP X. assert (CX' : Ctx tid s') by (eapply still_Ctx; eauto).
  destruct r as [n|e]; [apply H1|apply H2]; auto. congruence.
Qed.
Definition on_vol_path (path : str) (s : pst) (r : res pout) (s' : pst) (P : N -> Prop) : Prop :=
  exists x, volume_path pc path x /\ match x with Err e => r = Err e /\ still s s' | Ok n => n < NV /\ P n end.
(** ** Calls passed on to the core *)
Definition core_post (path : str) (c : call) (s : pst) (r : res pout) (s' : pst) : Prop :=
  on_vol_path path s r s' (fun n => exists o, did s n c o s' /\ r = unit_of o).
Lemma do_core tid path c s : Ctx tid s -> c = CFormat \/ c = CTransact \/ (exists m, c = CMaskSet m) ->
  wp (bind (RedPathVolumeLookup pc path) (fun _ => bind (core_unit pc c) (fun _ => ret RUnit))) (fun r s' => Ctx tid s' /\ core_post path c s r s') s.
Proof.
  intros CX HC. apply wp_bind. eapply wp_vol; eauto.
  2: { intros e s' CX' ST VP. split; auto. exists (Err e). auto. }
  intros n s1 CX1 ST1 CU Hn VP. apply wp_bind. assert (X : legal c /\ cclean pc c /\ harmless pc s1 c).
  { destruct HC as [->|[->|(m & ->)]]; (split; [exact I|]; split; [exact I|]; apply harmless_easy; [reflexivity|discriminate|discriminate|discriminate]). }
  destruct X as (X1 & X2 & X3). eapply wp_do_unit; eauto. intros o s2 CX2 DD _. rewrite CU in DD. pose proof (did_still _ _ _ _ _ _ _ ST1 DD) as DD0.
  assert (P : Ctx tid s2 /\ core_post path c s (unit_of o) s2). { split; auto. exists (Ok n). split; auto. split; auto. exists o. auto. }
  destruct o; [apply wp_ret|]; exact P.
Qed.
Definition getmask_post (path : str) (s : pst) (r : res pout) (s' : pst) : Prop :=
  on_vol_path path s r s' (fun n => still s s' /\ r = if v_mnt (p_v s n) then Ok (RNum (v_mask (p_v s n))) else Err EINVAL).
Lemma do_getmask tid path s : Ctx tid s -> wp (red_gettransmask pc path) (fun r s' => Ctx tid s' /\ getmask_post path s r s') s.
Proof.
  intros CX. unfold red_gettransmask. apply wp_bind. eapply wp_vol; eauto.
  2: { intros e s' CX' ST VP. split; auto. exists (Err e). auto. }
  intros n s1 CX1 ST1 CU Hn VP. pose proof ST1 as (_ & V1). apply wp_bind. eapply wp_maskget; eauto. intros s2 CX2 SM. rewrite CU, V1.
  assert (ST2 : still s s2) by (eapply still_trans; [exact ST1|now apply same_still]).
  assert (P : Ctx tid s2 /\ getmask_post path s (if v_mnt (p_v s n) then Ok (RNum (v_mask (p_v s n))) else Err EINVAL) s2). { split; auto. exists (Ok n). auto. }
  destruct (v_mnt (p_v s n)); [apply wp_ret|]; exact P.
Qed.
Definition statvfs_post (path : str) (s : pst) (r : res pout) (s' : pst) : Prop :=
  on_vol_path path s r s' (fun n => still s s' /\ if v_mnt (p_v s n) then exists f i, vstat (gs pc n) (ATOM pc n) MM TM (p_v s n) (f, i) /\ r = Ok (RVStat (f, i, s_ro (v_s (p_v s n)))) else r = Err EINVAL).
Lemma vstat_exec n v : exists x, forall o1 o2, exists t, exec (gs pc n) (ATOM pc n) MM TM CVolStat o1 o2 v = (x, v, t) /\
  if v_mnt v then exists f i, vstat (gs pc n) (ATOM pc n) MM TM v (f, i) /\ x = Ok (OVStat (f, i, s_ro (v_s v))) else x = Err EINVAL.
Proof using.
  unfold vstat, exec, omap, pbind, RedCoreVolStat. destruct (v_mnt v); cbn [negb].
  - eexists. intros o1 o2. exists []. split; [reflexivity|]. do 2 eexists. split; [intros; reflexivity|reflexivity].
  - eexists. intros o1 o2. exists []. split; reflexivity.
Qed.
Lemma do_statvfs tid path s : Ctx tid s -> wp (red_statvfs pc path) (fun r s' => Ctx tid s' /\ statvfs_post path s r s') s.
Proof.
  intros CX. unfold red_statvfs. apply wp_bind. eapply wp_vol; eauto.
  2: { intros e s' CX' ST VP. split; auto. exists (Err e). auto. }
  intros n s1 CX1 ST1 CU Hn VP. pose proof ST1 as (_ & V1). apply wp_bind. destruct (vstat_exec n (p_v s n)) as (x & EX).
  eapply (wp_quiet pc tid CVolStat x); eauto; [exact I|exact I|intros o1 o2; rewrite CU, V1; destruct (EX o1 o2) as (t & E & _); eauto|]. intros s2 CX2 SM.
  assert (ST2 : still s s2) by (eapply still_trans; [exact ST1|now apply same_still]). destruct (EX (fst (p_o s 0%nat)) (fst (p_o s 0%nat))) as (_ & _ & EY).
  destruct (v_mnt (p_v s n)) eqn:MN.
  - destruct EY as (f & i & VS & ->). apply wp_ret. split; auto. exists (Ok n). split; auto. split; auto. rewrite MN. split; auto. eauto.
  - subst x. split; auto. exists (Ok n). split; auto. split; auto. rewrite MN. auto.
Qed.

(** ** mount *)
Definition mount_post (path : str) (flags : N) (s : pst) (r : res pout) (s' : pst) : Prop :=
  on_vol_path path s r s' (fun n =>
    if v_mnt (p_v s n) then r = Err EBUSY /\ still s s' else
    exists o v', vstep n (p_v s n) (Some (ECall (CMount flags) o)) v' /\ (forall m, p_v s' m = if m =? n then v' else p_v s m) /\ r = unit_of o /\
      p_init s' = p_init s /\ p_h s' = p_h s /\ p_t s' = p_t s /\
      forall m, p_gen s' m = if (m =? n) && (match o with Ok _ => true | _ => false end) then next_gen (p_gen s n) else p_gen s m).
Lemma step_mount n v f o v' : n < NV -> VOK n v -> v_mnt v = false -> vstep n v (Some (ECall (CMount f) o)) v' -> v_mnt v' = match o with Ok _ => true | _ => false end.
Proof.
  intros Hn (_ & a & SA & _) MN ST. pose proof (step_sim _ (ok_g _ PC n Hn) _ MM TM TD _ _ _ _ SA ST) as (a' & AS & SA').
  inversion AS; subst; try discriminate; try (match goal with X : _ \/ _ |- _ => destruct X; discriminate end).
  all: try (repeat match goal with X : _ \/ _ |- _ => destruct X as [X|X] | X : exists _, _ |- _ => destruct X end; discriminate).
  - exact (vsim_mnt pc PC _ _ _ _ _ _ Hn SA').
  - destruct SA' as (-> & _). auto.
  - destruct SA' as (-> & _). auto.
Qed.
Lemma do_mount tid path flags s : Ctx tid s -> wp (red_mount2 pc path flags) (fun r s' => Ctx tid s' /\ mount_post path flags s r s') s.
Proof.
  intros CX. unfold red_mount2. apply wp_bind. eapply wp_vol; eauto.
  2: { intros e s' CX' ST VP. split; auto. exists (Err e). auto. }
  intros n s1 CX1 ST1 CU Hn VP. pose proof ST1 as ((R1 & R2 & R3 & R4) & V1). apply wp_bind. eapply wp_Get; eauto. unfold cur_vol. rewrite CU, V1. apply wp_bind.
  destruct (v_mnt (p_v s n)) eqn:MN; cbn [negb check].
  { apply wp_fail. split; auto. exists (Ok n). split; auto. split; auto. rewrite MN. auto. }
  apply wp_ret. apply wp_bind. unfold core_unit. apply wp_bind. pose proof (x_v _ _ _ CX _ Hn) as HV.
  apply (wp_core pc PC); [apply CX1|apply CX1|exact I|exact I|]. intros o v' s2 ST VI2 RS2 CU2 EV2. rewrite CU, V1 in *.
  pose proof (step_mount n _ _ _ _ Hn HV MN ST) as MN'. destruct RS2 as (S1 & S2 & S3 & S4).
  assert (VV2 : forall m, p_v s2 m = if m =? n then v' else p_v s m). { intros m. rewrite EV2. unfold upd. destruct (m =? n); auto. }
  pose proof (x_inv _ _ _ CX) as [IA IB IC ID IE IF IG]. pose proof (x_init _ _ _ CX) as IN.
  assert (NH : forall k, k < HC -> h_ino (p_h s k) <> 0 -> h_vol (p_h s k) <> n). { intros k Hk HN EN. destruct (ID IN k Hk HN) as (_ & X & _). rewrite EN in X. congruence. }
  assert (NT : forall k, k < TC -> t_vol (p_t s k) = n -> t_ino (p_t s k) = ROOT). { intros k Hk EN. destruct (IE IN k Hk) as (_ & [X|[X _]]); auto. rewrite EN in X. congruence. }
  assert (CTX : forall s3, p_init s3 = p_init s -> p_h s3 = p_h s -> p_t s3 = p_t s -> (forall m, p_v s3 m = if m =? n then v' else p_v s m) -> VInv s3 -> p_cur s3 < NV ->
     (forall m, m < NV -> p_gen s3 m <= 2047 /\ (v_mnt (p_v s3 m) = true -> 1 <= p_gen s3 m)) -> Ctx tid s3).
  { intros s3 E1 E2 E3 E4 HV3 HC3 HG. split.
    - split; auto.
      + rewrite E2. intros _ k Hk HN. specialize (NH k Hk HN). destruct (ID IN k Hk HN) as (A & B & C). unfold handle_ok. rewrite E4. apply N.eqb_neq in NH. rewrite NH. auto.
      + rewrite E3. intros _ k Hk. destruct (IE IN k Hk) as (A & B). split; auto. destruct (N.eq_dec (t_vol (p_t s k)) n) as [EN|NE]; [left; auto|]. rewrite E4. apply N.eqb_neq in NE. rewrite NE. auto.
      + rewrite E3. intros _. apply IF; auto.
      + rewrite E1, IN. discriminate.
    - congruence.
    - pose proof (x_reg _ _ _ CX) as RG. unfold registered in *. now rewrite E3. }
  destruct o as [o|e].
  - apply wp_ret. apply wp_bind. apply wp_modify; [auto|reflexivity|]. rewrite CU2. apply wp_ret.
    match goal with |- Ctx tid ?x /\ _ => set (s3 := x) end.
    assert (G3 : forall m, p_gen s3 m = if m =? n then next_gen (p_gen s n) else p_gen s m).
    { intros m. unfold s3. cbn. unfold upd. rewrite ?CU2, S4, R4. destruct (m =? n); auto. }
    split.
    + apply CTX; auto; try (cbn; congruence).
      all: match goal with |- _ < _ => cbn; rewrite ?CU2; auto | _ => idtac end.
      * intros m Hm. rewrite G3. cbn [s3 p_v set_gen]. rewrite ?VV2. destruct (IC m Hm) as [A B]. destruct (N.eqb_spec m n) as [->|NE]; auto.
        unfold next_gen. destruct (N.ltb_spec 2047 (p_gen s n + 1)); lia.
    + exists (Ok n). split; auto. split; auto. rewrite MN. exists (Ok o), v'. split; auto. split; [exact VV2|]. split; [reflexivity|]. split; [cbn; congruence|]. split; [cbn; congruence|]. split; [cbn; congruence|].
      intros m. rewrite andb_true_r. apply G3.
  - split.
    + apply CTX; auto; try congruence. intros m Hm. rewrite S4, R4, VV2. destruct (IC m Hm) as [A B]. split; auto. destruct (N.eqb_spec m n) as [->|]; auto. congruence.
    + exists (Ok n). split; auto. split; auto. rewrite MN. exists (Err e), v'. split; auto. split; [exact VV2|]. split; [reflexivity|]. split; [congruence|]. split; [congruence|]. split; [congruence|].
      intros m. rewrite andb_false_r. congruence.
Qed.

(** ** umount, rollback *)
Definition is_open (s : pst) (n k : N) : Prop := h_ino (p_h s k) <> 0 /\ h_vol (p_h s k) = n.
Definition any_open (s : pst) (n : N) : Prop := exists k, k < HC /\ is_open s n k.
Lemma on_vol_spec s n k : on_vol s n k = true <-> is_open s n k.
Proof using. unfold on_vol, is_open. rewrite andb_true_iff, negb_true_iff, N.eqb_neq, N.eqb_eq. tauto. Qed.
(** The working directories on volume [n] become its root directory. *)
Definition cwds_reset (s : pst) (n : N) (s' : pst) : Prop :=
  forall k, k < TC -> p_t s' k = if t_vol (p_t s k) =? n then mkT (t_id (p_t s k)) n ROOT else p_t s k.
Definition umount_post (path : str) (flags : N) (s : pst) (r : res pout) (s' : pst) : Prop :=
  if negb (flags =? N.land flags 1) then r = Err EINVAL /\ still s s' else
  on_vol_path path s r s' (fun n =>
    if negb (v_mnt (p_v s n)) then r = Err EINVAL /\ still s s' else
    has flags 1 = false /\ any_open s n /\ r = Err EBUSY /\ still s s' \/
    (has flags 1 = true \/ ~ any_open s n) /\ r = Ok RUnit /\ p_init s' = p_init s /\ p_gen s' = p_gen s /\ cwds_reset s n s' /\
      (forall k, k < HC -> is_open s n k -> p_h s' k = freed (p_h s k)) /\ (forall k, k < HC -> ~ is_open s n k -> p_h s' k = p_h s k) /\
      exists v', vstep n (p_v s n) (Some (ECall CUnmount (Ok OUnit))) v' /\ forall m, p_v s' m = if m =? n then v' else p_v s m).
Lemma step_umount n v o v' : n < NV -> VOK n v -> v_mnt v = true -> vstep n v (Some (ECall CUnmount o)) v' -> o = Ok OUnit /\ v_mnt v' = false.
Proof.
  intros Hn HV MN ST. destruct (VOK_W pc PC _ _ Hn HV MN) as (W & C & SA & _). pose proof (step_sim _ (ok_g _ PC n Hn) _ MM TM TD _ _ _ _ SA ST) as (a' & AS & SA').
  inversion AS; subst; try discriminate; try (match goal with X : _ \/ _ |- _ => destruct X; discriminate end). split; auto. destruct SA' as (-> & _). auto.
Qed.
(** After the loss of a volume's state: only root directories, no handles. *)
Lemma gone_Ctx tid s n v' s' : Ctx tid s -> n < NV -> p_init s' = p_init s -> p_gen s' = p_gen s -> cwds_reset s n s' ->
  (forall k, k < HC -> is_open s n k -> h_ino (p_h s' k) = 0) -> (forall k, k < HC -> ~ is_open s n k -> p_h s' k = p_h s k) ->
  (forall m, p_v s' m = if m =? n then v' else p_v s m) -> VInv s' -> p_cur s' < NV -> (v_mnt v' = true -> v_mnt (p_v s n) = true) -> Ctx tid s'.
Proof using.
  intros CX Hn E1 E2 CR H1 H2 VV HV HC' MV. pose proof (x_inv _ _ _ CX) as [IA IB IC ID IE IF IG]. pose proof (x_init _ _ _ CX) as IN.
  assert (ID' : forall k, k < TC -> t_id (p_t s' k) = t_id (p_t s k)). { intros k Hk. rewrite (CR k Hk). destruct (t_vol (p_t s k) =? n); auto. }
  split.
  - split; auto.
    + intros m Hm. rewrite E2, VV. destruct (IC m Hm) as [A B]. split; auto. destruct (N.eqb_spec m n) as [->|]; auto.
    + intros _ k Hk HN. assert (NO : ~ is_open s n k) by (intros X; apply HN; auto). rewrite (H2 k Hk NO) in *. destruct (ID IN k Hk HN) as (A & B & C). unfold handle_ok. rewrite VV.
      destruct (N.eqb_spec (h_vol (p_h s k)) n) as [EN|NE]; auto. exfalso. apply NO. split; auto.
    + intros _ k Hk. rewrite (CR k Hk). destruct (IE IN k Hk) as (A & B). destruct (N.eqb_spec (t_vol (p_t s k)) n) as [EN|NE]; [split; [auto|left; auto]|]. split; auto.
      rewrite VV. apply N.eqb_neq in NE. rewrite NE. auto.
    + intros _ j k Hj Hk. rewrite !ID' by auto. apply IF; auto.
    + rewrite E1, IN. discriminate.
  - congruence.
  - destruct (x_reg _ _ _ CX) as (A & k & Hk & EK). split; auto. exists k. split; auto. rewrite ID' by auto. auto.
Qed.
Lemma cwds_set s n s1 : p_t s1 = p_t s -> cwds_reset s n (set_t (fun k => if (k <? TC) && (t_vol (p_t s1 k) =? n) then mkT (t_id (p_t s1 k)) n ROOT else p_t s1 k) s1).
Proof using. intros E k Hk. cbn. rewrite E. apply N.ltb_lt in Hk. rewrite Hk. reflexivity. Qed.
Lemma do_umount tid path flags s : Ctx tid s -> wp (red_umount2 pc path flags) (fun r s' => Ctx tid s' /\ umount_post path flags s r s') s.
Proof.
  intros CX. unfold red_umount2, umount_post. apply wp_bind. destruct (flags =? N.land flags 1); cbn [negb check].
  2: { apply wp_fail. split; auto. split; auto. apply still_refl. }
  apply wp_ret. apply wp_bind. eapply wp_vol; eauto.
  2: { intros e s' CX' ST VP. split; auto. exists (Err e). auto. }
  intros n s1 CX1 ST1 CU Hn VP. pose proof ST1 as ((R1 & R2 & R3 & R4) & V1). apply wp_bind. eapply wp_Get; eauto. unfold cur_vol. rewrite CU, V1. apply wp_bind.
  destruct (v_mnt (p_v s n)) eqn:MN; cbn [negb check].
  2: { apply wp_fail. split; auto. exists (Ok n). split; auto. split; auto. rewrite MN. cbn. auto. }
  apply wp_ret. apply wp_bind. pose proof (x_v _ _ _ CX _ Hn) as HV.
  assert (FIN : forall s2, VInv s2 -> p_cur s2 = n -> p_init s2 = p_init s -> p_t s2 = p_t s -> p_gen s2 = p_gen s -> (forall m, p_v s2 m = p_v s m) ->
     (forall k, k < HC -> is_open s n k -> p_h s2 k = freed (p_h s k)) -> (forall k, k < HC -> ~ is_open s n k -> p_h s2 k = p_h s k) -> has flags 1 = true \/ ~ any_open s n ->
     wp (bind (core_unit pc CUnmount) (fun _ => bind (get p_cur) (fun c => bind (CwdResetVol pc c) (fun _ => ret RUnit))))
       (fun r s' => Ctx tid s' /\ on_vol_path path s r s' (fun n => if negb (v_mnt (p_v s n)) then r = Err EINVAL /\ still s s' else
    has flags 1 = false /\ any_open s n /\ r = Err EBUSY /\ still s s' \/
    (has flags 1 = true \/ ~ any_open s n) /\ r = Ok RUnit /\ p_init s' = p_init s /\ p_gen s' = p_gen s /\ cwds_reset s n s' /\
      (forall k, k < HC -> is_open s n k -> p_h s' k = freed (p_h s k)) /\ (forall k, k < HC -> ~ is_open s n k -> p_h s' k = p_h s k) /\
      exists v', vstep n (p_v s n) (Some (ECall CUnmount (Ok OUnit))) v' /\ forall m, p_v s' m = if m =? n then v' else p_v s m)) s2).
  { intros s2 HV2 CU2 E1 E2 E3 E4 H1 H2 HF. apply wp_bind. unfold core_unit. apply wp_bind. apply (wp_core pc PC); [auto|now rewrite CU2|exact I|exact I|].
    intros o v' s3 ST VI3 (S1 & S2 & S3 & S4) CU3 EV3. rewrite CU2, E4 in *. destruct (step_umount n _ _ _ Hn HV MN ST) as (-> & MN').
    assert (VV3 : forall m, p_v s3 m = if m =? n then v' else p_v s m). { intros m. rewrite EV3. unfold upd. destruct (m =? n); auto. }
    apply wp_ret. apply wp_bind. apply wp_get; auto. apply wp_bind. rewrite CU3. apply wp_modify; auto. apply wp_ret. rewrite ?CU2.
    match goal with |- Ctx tid ?x /\ _ => set (s4 := x) end. assert (CR : cwds_reset s n s4) by (apply cwds_set; congruence).
    assert (HH1 : forall k, k < HC -> is_open s n k -> p_h s4 k = freed (p_h s k)) by (intros k Hk HO; cbn; rewrite S2; auto).
    assert (HH2 : forall k, k < HC -> ~ is_open s n k -> p_h s4 k = p_h s k) by (intros k Hk HO; cbn; rewrite S2; auto).
    split.
    - eapply (gone_Ctx tid s n v' s4); eauto; try (cbn; congruence). intros k Hk HO. rewrite (HH1 k Hk HO). reflexivity.
    - exists (Ok n). split; auto. split; auto. rewrite MN. cbn [negb]. right. split; auto. split; auto. split; [cbn; congruence|]. split; [cbn; congruence|]. split; auto. split; auto. split; auto.
      exists v'. split; auto. }
  destruct (has flags 1) eqn:EF.
  - apply wp_modify; [apply CX1|reflexivity|]. apply FIN; auto.
    + intros m Hm. cbn. apply CX1; auto.
    + intros k Hk HO. cbn. rewrite R2, CU. unfold on_vol. rewrite R2. apply on_vol_spec in HO. unfold on_vol in HO. rewrite HO. apply N.ltb_lt in Hk. now rewrite Hk.
    + intros k Hk HO. cbn. rewrite R2, CU. unfold on_vol. rewrite R2.
      destruct (negb (h_ino (p_h s k) =? INODE_INVALID) && (h_vol (p_h s k) =? n)) eqn:EO; [exfalso; apply HO; apply on_vol_spec; exact EO|]. now rewrite andb_false_r.
  - eapply wp_Act; eauto. cbn [fst snd]. rewrite CU.
    assert (EX : forall k, on_vol s1 n k = on_vol s n k) by (intros k; unfold on_vol; now rewrite R2).
    destruct (first (on_vol s1 n) HC) as [k|] eqn:E1.
    + apply first_some in E1 as [A B]. rewrite EX in B. apply on_vol_spec in B. split; auto. exists (Ok n). split; auto. split; auto. rewrite MN. cbn [negb]. left. split; auto. split; auto. exists k. auto.
    + assert (NO : ~ any_open s n). { intros (k & Hk & HO). pose proof (first_none _ _ E1 k Hk) as X. rewrite EX in X. apply on_vol_spec in HO. congruence. }
      apply FIN; auto; [apply CX1| |].
      * intros k Hk HO. exfalso. apply NO. exists k. auto.
      * intros k Hk _. now rewrite R2.
Qed.
Definition rollback_post (path : str) (s : pst) (r : res pout) (s' : pst) : Prop :=
  on_vol_path path s r s' (fun n =>
    any_open s n /\ r = Err EBUSY /\ still s s' \/
    ~ any_open s n /\ exists o v', vstep n (p_v s n) (Some (ECall CRollback o)) v' /\ (forall m, p_v s' m = if m =? n then v' else p_v s m) /\ r = unit_of o /\
      p_init s' = p_init s /\ p_gen s' = p_gen s /\ p_h s' = p_h s /\ match o with Ok _ => cwds_reset s n s' | Err _ => p_t s' = p_t s end).
Lemma step_rollback n v o v' : n < NV -> VOK n v -> vstep n v (Some (ECall CRollback o)) v' -> v_mnt v' = v_mnt v /\ match o with Ok _ => True | Err _ => forall i, v_mnt v = true -> Kept pc n v v' i end.
Proof.
  intros Hn HV ST. split; [eapply (step_mnt_eq pc PC); eauto; discriminate|]. destruct o as [o|e]; auto. intros i MN.
  destruct (VOK_W pc PC _ _ Hn HV MN) as (W & C & SA & _). pose proof (step_sim _ (ok_g _ PC n Hn) _ MM TM TD _ _ _ _ SA ST) as (a' & AS & SA').
  remember (s_ro (v_s v)) as ro eqn:ERO. remember (v_mask v) as mask eqn:EMK. clear ERO EMK. inversion AS; subst; try discriminate.
  split; [exact (vsim_mnt pc PC _ _ _ _ _ _ Hn SA')|]. split; intros H.
  - apply (vdir_W pc PC n v' W C _ _ i Hn SA'). apply (vdir_W pc PC n v W C _ _ i Hn SA). auto.
  - apply (vfile_W pc PC n v' W C _ _ i Hn SA'). apply (vfile_W pc PC n v W C _ _ i Hn SA). auto.
Qed.
Lemma do_rollback tid path s : Ctx tid s -> wp (red_rollback pc path) (fun r s' => Ctx tid s' /\ rollback_post path s r s') s.
Proof.
  intros CX. unfold red_rollback, rollback_post. apply wp_bind. eapply wp_vol; eauto.
  2: { intros e s' CX' ST VP. split; auto. exists (Err e). auto. }
  intros n s1 CX1 ST1 CU Hn VP. pose proof ST1 as ((R1 & R2 & R3 & R4) & V1). apply wp_bind. eapply wp_Act; eauto. cbn [fst snd].
  assert (EX : forall k, on_vol s1 n k = on_vol s n k) by (intros k; unfold on_vol; now rewrite R2).
  destruct (first (on_vol s1 n) HC) as [k|] eqn:E1.
  { apply first_some in E1 as [A B]. rewrite EX in B. apply on_vol_spec in B. split; auto. exists (Ok n). split; auto. split; auto. left. split; auto. exists k. auto. }
  assert (NO : ~ any_open s n). { intros (k & Hk & HO). pose proof (first_none _ _ E1 k Hk) as X. rewrite EX in X. apply on_vol_spec in HO. congruence. }
  pose proof (x_v _ _ _ CX _ Hn) as HV. apply wp_bind. unfold core_unit. apply wp_bind. apply (wp_core pc PC); [apply CX1|apply CX1|exact I|exact I|].
  intros o v' s3 ST VI3 (S1 & S2 & S3 & S4) CU3 EV3. rewrite CU, V1 in *. destruct (step_rollback n _ _ _ Hn HV ST) as (MN' & KP).
  assert (VV3 : forall m, p_v s3 m = if m =? n then v' else p_v s m). { intros m. rewrite EV3. unfold upd. destruct (m =? n); auto. }
  destruct o as [o|e].
  - apply wp_ret. apply wp_bind. apply wp_modify; auto. apply wp_ret.
    match goal with |- Ctx tid ?x /\ _ => set (s4 := x) end. assert (CR : cwds_reset s n s4) by (apply cwds_set; congruence).
    split.
    + eapply (gone_Ctx tid s n v' s4); eauto; try (cbn; congruence).
      * intros k Hk HO. exfalso. apply NO. exists k. auto.
    + exists (Ok n). split; auto. split; auto. right. split; auto. exists (Ok o), v'. split; auto. split; [auto|]. split; [auto|]. split; [cbn; congruence|]. split; [cbn; congruence|]. split; [cbn; congruence|]. auto.
  - split.
    + pose proof (inv_core pc s1 n v' s3 (x_inv _ _ _ CX1) (x_init _ _ _ CX1) Hn) as IC. split.
      * apply IC; auto.
        -- repeat split; congruence.
        -- rewrite ?CU3, ?CU. auto.
        -- rewrite V1. congruence.
        -- rewrite V1. auto.
      * pose proof (x_init _ _ _ CX). congruence.
      * pose proof (x_reg _ _ _ CX) as RG. unfold registered in *. rewrite S3, R3. auto.
    + exists (Ok n). split; auto. split; auto. right. split; auto. exists (Err e), v'. split; auto. split; [auto|]. split; [auto|]. split; [congruence|]. split; [congruence|]. split; congruence.
Qed.
End Calls6.
