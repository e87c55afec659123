(** The invariant of the POSIX layer. *)
From Verif Require Import Base Count FsState FsDir FsSpec FsSpecN FsCoreP2 FsMach FsVolume FsVolumeP FsReach PropFs PropNs Posix PosixSpec PosixWp PosixPath PosixPath2.
Ltac Zify.zify_post_hook ::= idtac.

Section Inv.
Variable pc : pcfg.
Hypothesis PC : pcfg_ok pc.
Set Default Proof Using "PC".
Notation SEP := (SEP pc).
Notation NV := (NV pc).
Notation HC := (HC pc).
Notation TC := (TC pc).
Notation prefix := (prefix pc).
Notation MM := (MMASK pc).
Notation TM := (TMASK pc).
Notation TD := (TDEF pc).
Notation comps := (comps SEP).
Notation VOK := (VOK pc).
Notation VInv := (VInv pc).
Notation wp := (wp pc).
Notation vask := (vask pc).
Notation vdir := (vdir pc).
Notation vfile := (vfile pc).
Notation vstep := (vstep pc).

Definition handle_ok (s : pst) (h : handle) : Prop :=
  h_vol h < NV /\ v_mnt (p_v s (h_vol h)) = true /\
  if h_dir h then vdir (h_vol h) (p_v s (h_vol h)) (h_ino h)
  else vfile (h_vol h) (p_v s (h_vol h)) (h_ino h) /\ h_off h <= INODE_SIZE_MAX (gs pc (h_vol h)).
Definition task_ok (s : pst) (t : task) : Prop :=
  t_vol t < NV /\ (t_ino t = ROOT \/ v_mnt (p_v s (t_vol t)) = true /\ vdir (t_vol t) (p_v s (t_vol t)) (t_ino t)).
Record PInv (s : pst) : Prop := {
  i_v : VInv s;
  i_cur : p_cur s < NV;
  i_gen : forall n, n < NV -> p_gen s n <= 2047 /\ (v_mnt (p_v s n) = true -> 1 <= p_gen s n);
  i_h : p_init s = true -> forall k, k < HC -> h_ino (p_h s k) <> 0 -> handle_ok s (p_h s k);
  i_t : p_init s = true -> forall k, k < TC -> task_ok s (p_t s k);
  i_d : p_init s = true -> forall j k, j < TC -> k < TC -> t_id (p_t s j) = t_id (p_t s k) -> t_id (p_t s j) <> 0 -> j = k;
  i_u : p_init s = false -> forall n, n < NV -> v_mnt (p_v s n) = false }.

(** Same tables and volumes; the current volume may differ. *)
Definition still (s s' : pst) : Prop := rest s s' /\ forall n, p_v s' n = p_v s n.
Lemma still_refl s : still s s. Proof using. split; [repeat split|auto]. Qed.
Lemma still_trans s s1 s2 : still s s1 -> still s1 s2 -> still s s2.
Proof using. intros ((A & B & C & D) & F) ((A' & B' & C' & D') & F'). split; [repeat split; congruence|]. intros n. rewrite F'. apply F. Qed.
Lemma same_still s s' : same s s' -> still s s'. Proof using. intros (A & _ & B). split; auto. Qed.
Lemma still_inv s s' : PInv s -> still s s' -> p_cur s' < NV -> PInv s'.
Proof using.
  intros [A B C D E F G] ((I1 & I2 & I3 & I4) & V) HC. split; auto.
  - intros n Hn. rewrite V. auto.
  - intros n Hn. rewrite I4, V. auto.
  - rewrite I1, I2. intros Hi k Hk X. specialize (D Hi k Hk X). unfold handle_ok in *. rewrite V. auto.
  - rewrite I1, I3. intros Hi k Hk. specialize (E Hi k Hk). unfold task_ok in *. rewrite V. auto.
  - rewrite I1, I3. auto.
  - rewrite I1. intros Hi n Hn. rewrite V. auto.
Qed.
Lemma same_inv s s' : PInv s -> same s s' -> PInv s'.
Proof using. intros H SM. apply (still_inv s); [auto|now apply same_still|]. destruct SM as (_ & -> & _). apply H. Qed.

(** * What a step of a volume does to existing inodes *)
Definition Kept (n : N) (v v' : vol) (i : N) : Prop := v_mnt v' = true /\ (vdir n v i -> vdir n v' i) /\ (vfile n v i -> vfile n v' i).
Definition keptW (W W' : fs) (i : N) : Prop := (isdir W i -> isdir W' i) /\ (isfile W i -> isfile W' i).
Lemma keptW_upd W i x : (isdir W i -> exists p sl, x = Some (ADir p sl)) -> (isfile W i -> exists a b c, x = Some (AFile a b c)) -> forall j, keptW W (upd W i x) j.
Proof using.
  intros H1 H2 j. unfold keptW, isdir, isfile, upd in *. destruct (N.eqb_spec j i) as [->|NE]; [|tauto]. split; auto.
Qed.
Lemma keptW_slot W p k x j : keptW W (set_slot W p k x) j.
Proof using.
  unfold set_slot. destruct (W p) as [[a b c|q sl]|] eqn:E; try (split; tauto). apply keptW_upd; [eauto|]. intros (a & b & c & X). congruence.
Qed.
Lemma keptW_parent W i p j : keptW W (set_parent W i p) j.
Proof using.
  unfold set_parent. destruct (W i) as [[a b c|q sl]|] eqn:E; try (split; tauto). apply keptW_upd; [eauto|]. intros (a & b & c & X). congruence.
Qed.
Lemma keptW_trans A B' C j : keptW A B' j -> keptW B' C j -> keptW A C j.
Proof using. unfold keptW. tauto. Qed.
Lemma keptW_refl A j : keptW A A j. Proof using. split; auto. Qed.
(** Removing a name of [j]: [i] remains unless [i] = [j] and that was its only link. *)
Lemma keptW_unname W j i : (i = j -> exists nl sz b, W i = Some (AFile nl sz b) /\ nl <> 1 /\ 1 <= nl) -> keptW W (unname W j) i.
Proof using.
  intros H. unfold unname. destruct (N.eq_dec i j) as [<-|NE].
  - destruct (H eq_refl) as (nl & sz & b & E & N1 & N2). rewrite E. replace (1 <? nl) with true by (symmetry; apply N.ltb_lt; lia).
    apply keptW_upd; [intros (p & sl & X); congruence|eauto].
  - assert (X : forall y, keptW W (upd W j y) i). { intros y. unfold keptW, isdir, isfile, upd. destruct (N.eqb_spec i j); [tauto|]. tauto. }
    destruct (W j) as [[nl sz b|q sl]|]; auto. apply keptW_refl.
Qed.
Lemma file_slot W p k x i a b c : W i = Some (AFile a b c) -> set_slot W p k x i = Some (AFile a b c).
Proof using. intros H. unfold set_slot. destruct (W p) as [[?|q sl]|] eqn:E; auto. unfold upd. destruct (N.eqb_spec i p); auto. subst. congruence. Qed.
Lemma file_parent W j p i a b c : W i = Some (AFile a b c) -> set_parent W j p i = Some (AFile a b c).
Proof using. intros H. unfold set_parent. destruct (W j) as [[?|q sl]|] eqn:E; auto. unfold upd. destruct (N.eqb_spec i j); auto. subst. congruence. Qed.
(** The link that a call may remove. *)
Definition victim (c : call) : option (N * name) := match c with CUnlink p nm => Some (p, nm) | CRename _ _ dp dn => Some (dp, dn) | _ => None end.
Lemma op_kept nmax szmax icnt c r W W' i : WF W -> op_ok nmax szmax icnt c r W W' ->
  (forall p nm, victim c = Some (p, nm) -> named W p nm i -> exists nl sz b, W i = Some (AFile nl sz b) /\ nl <> 1) -> keptW W W' i.
Proof using.
  intros HW H V. destruct (N.eq_dec i 0) as [->|N0]. { pose proof (wf_none _ HW) as W0. split; [intros (? & ? & X)|intros (? & ? & ? & X)]; congruence. }
  destruct c; cbn in H; try contradiction.
  - destruct H as (j & _ & _ & _ & _ & _ & EJ & _ & _ & k & _ & ->). eapply keptW_trans; [|apply keptW_slot]. apply keptW_upd; [intros (p' & sl & X)|intros (a & b & c & X)]; congruence.
  - destruct H as (_ & _ & _ & nl & sz & b & k & EI & _ & (q & sl & EP) & _ & _ & ->). eapply keptW_trans; [apply (keptW_slot W p k (Some (nm, i0)))|].
    apply keptW_upd; [|eauto]. intros (p' & sl' & X). exfalso. unfold set_slot in X. rewrite EP in X. unfold upd in X. destruct (N.eqb_spec i0 p); [|congruence]. subst. congruence.
  - destruct H as (_ & k & j & E & _ & ->). eapply keptW_trans; [apply (keptW_slot W p k None)|]. apply keptW_unname. intros ->.
    destruct (V p nm eq_refl (ex_intro _ k E)) as (nl & sz & b & EJ & N1). exists nl, sz, b. pose proof (proj1 (wf_file _ HW _ _ _ _ EJ)). split; [|lia].
    unfold set_slot. destruct (W p) as [[?|q sl]|] eqn:EP; auto. unfold upd. destruct (N.eqb_spec j p); auto. subst. congruence.
  - destruct H as (_ & DP & ks & kd & x & E & [(_ & ->)|(_ & j & NE & X & ->)]); [apply keptW_refl|].
    eapply keptW_trans; [apply (keptW_slot W dp kd (Some (dn, x)))|]. eapply keptW_trans; [apply (keptW_slot _ sp ks None)|]. eapply keptW_trans; [apply (keptW_parent _ x dp)|].
    apply keptW_unname. intros <-. destruct X as [(-> & _)|(EJ & _)]; [tauto|].
    destruct (V dp dn eq_refl (ex_intro _ kd EJ)) as (nl & sz & b & EI & N1). exists nl, sz, b. pose proof (proj1 (wf_file _ HW _ _ _ _ EI)). split; [|lia].
    apply file_parent, file_slot, file_slot. auto.
  - destruct H as (n & _ & H). destruct (len =? 0); [destruct H as (_ & -> & _); apply keptW_refl|]. destruct H as (_ & nl & sz & b & E & ->).
    apply keptW_upd; [intros (p' & sl' & X); congruence|eauto].
  - destruct H as (_ & _ & nl & sz & b & E & ->). apply keptW_upd; [intros (p' & sl' & X); congruence|eauto].
Qed.
Lemma vsim_mnt n v W C ro mask : n < NV -> vsim pc n v (Mnt W C ro mask) -> v_mnt v = true.
Proof. intros Hn SA. exact (Sim_mnt _ (ok_g _ PC n Hn) _ MM TM TD _ _ _ _ _ SA). Qed.
Lemma step_kept n v c r v' i : n < NV -> VOK n v -> v_mnt v = true -> vstep n v (Some (ECall c r)) v' -> legal c -> c <> CRollback -> c <> CUnmount ->
  (forall p nm, victim c = Some (p, nm) -> vask n v (CLookup p nm) = Ok (ONum i) -> exists nl sz bl, vask n v (CStat i) = Ok (OStat (false, nl, sz, bl)) /\ nl <> 1) ->
  Kept n v v' i.
Proof.
  intros Hn HV MN ST LG N1 N2 V. destruct (VOK_W pc PC n v Hn HV MN) as (W & C & SA & _).
  pose proof (step_sim _ (ok_g _ PC n Hn) _ MM TM TD _ _ _ _ SA ST) as (a' & AS & SA').
  pose proof (vWF pc PC _ _ _ _ _ _ Hn SA) as HW.
  assert (X : exists W' C' ro' mask', a' = Mnt W' C' ro' mask' /\ keptW W W' i).
  { inversion AS; subst; try (do 4 eexists; split; [reflexivity|apply keptW_refl]); try congruence.
    do 4 eexists; split; [reflexivity|]. eapply op_kept; eauto. intros p nm EV NM. destruct (V p nm EV) as (nl & sz & bl & E & NL).
    - apply (vfound_W pc PC n v W C _ _ p nm i Hn SA); auto. destruct c; cbn in EV; try discriminate; injection EV as <- <-; cbn in LG; tauto.
    - destruct (stat_W _ (ok_g _ PC n Hn) _ MM TM TD _ _ _ _ _ SA _ _ _ _ E) as (b & EW). eauto. }
  destruct X as (W' & C' & ro' & mask' & -> & K1 & K2). split; [exact (vsim_mnt _ _ _ _ _ _ Hn SA')|]. split; intros H.
  - apply (vdir_W pc PC n v' W' C' _ _ i Hn SA'). apply K1. apply (vdir_W pc PC n v W C _ _ i Hn SA). auto.
  - apply (vfile_W pc PC n v' W' C' _ _ i Hn SA'). apply K2. apply (vfile_W pc PC n v W C _ _ i Hn SA). auto.
Qed.
(** A call does not mount or unmount, except for those that are meant to. *)
Lemma step_mnt_eq n v c r v' : n < NV -> VOK n v -> vstep n v (Some (ECall c r)) v' -> (forall f, c <> CMount f) -> c <> CUnmount -> v_mnt v' = v_mnt v.
Proof.
  intros Hn (_ & a & SA & _) ST N1 N2. pose proof (step_sim _ (ok_g _ PC n Hn) _ MM TM TD _ _ _ _ SA ST) as (a' & AS & SA').
  assert (X : match a, a' with Mnt _ _ _ _, Mnt _ _ _ _ => True | Umt _ _, Umt _ _ => True | _, _ => False end).
  { inversion AS; subst; auto; try (exfalso; eapply N1; eauto; fail); try congruence. }
  destruct a as [W C ro mask|C mask], a' as [W' C' ro' mask'|C' mask']; try contradiction.
  - rewrite (vsim_mnt _ _ _ _ _ _ Hn SA'). symmetry. exact (vsim_mnt _ _ _ _ _ _ Hn SA).
  - destruct SA' as (-> & _), SA as (-> & _). auto.
Qed.

(** * Preservation by a call into the core *)
Definition refd (s : pst) (n i : N) : Prop :=
  (exists k, k < HC /\ h_ino (p_h s k) = i /\ i <> 0 /\ h_vol (p_h s k) = n) \/ (exists k, k < TC /\ t_ino (p_t s k) = i /\ t_vol (p_t s k) = n).
Lemma inv_core s n v' s' : PInv s -> p_init s = true -> n < NV -> rest s s' -> p_v s' = upd (p_v s) n v' -> p_cur s' < NV -> VInv s' ->
  (v_mnt v' = true -> v_mnt (p_v s n) = true) ->
  (v_mnt (p_v s n) = true -> forall i, refd s n i -> Kept n (p_v s n) v' i) -> PInv s'.
Proof using.
  intros [A B C D E F G] IN Hn (I1 & I2 & I3 & I4) EV HC' HV' HM HK.
  assert (V : forall m, p_v s' m = if m =? n then v' else p_v s m) by (intros m; rewrite EV; reflexivity).
  split; auto.
  - intros m Hm. rewrite I4, V. destruct (C m Hm) as [C1 C2]. split; auto. destruct (N.eqb_spec m n) as [->|]; auto.
  - rewrite I2. intros _ k Hk X. destruct (D IN k Hk X) as (D1 & D2 & D3). unfold handle_ok. rewrite !V. destruct (N.eqb_spec (h_vol (p_h s k)) n) as [EN|NE]; auto.
    rewrite EN in *. destruct (HK D2 (h_ino (p_h s k))) as (K1 & K2 & K3); [left; exists k; auto|]. split; auto. split; auto. destruct (h_dir (p_h s k)); auto. split; [apply K3|]; tauto.
  - rewrite I3. intros _ k Hk. destruct (E IN k Hk) as (E1 & E2). unfold task_ok. rewrite !V. destruct (N.eqb_spec (t_vol (p_t s k)) n) as [EN|NE]; auto.
    rewrite EN in *. split; auto. destruct E2 as [E2|[E2 E3]]; auto. right. destruct (HK E2 (t_ino (p_t s k))) as (K1 & K2 & K3); [right; exists k; auto|]. auto.
  - rewrite I3. auto.
  - rewrite I1, IN. discriminate.
Qed.
End Inv.
