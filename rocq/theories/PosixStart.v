(** Where a path starts: volume prefix or working directory. *)
From Verif Require Import Base Count FsState FsDir FsSpec FsSpecN FsCoreP2 FsMach FsVolume FsVolumeP FsReach PropFs PropNs Posix PosixSpec PosixWp PosixPath PosixPath2 PosixInv.
Ltac Zify.zify_post_hook ::= idtac.

(** The working directory of task [tid] is inode [i] of volume [n]. *)
Definition cwd_is (pc : pcfg) (tid : N) (s : pst) (n i : N) : Prop :=
  exists k, k < TC pc /\ t_id (p_t s k) = tid /\ t_vol (p_t s k) = n /\ t_ino (p_t s k) = i.
(** A path that does not begin with a separator. *)
Definition relative (sep : N) (path : str) : Prop := exists c t, cstr path = c :: t /\ c <> sep.
(** The resolution of [path] by task [tid] starts in directory [i] of volume [n] and continues with the
    components [l]: a path with a volume prefix starts in the root directory of that volume, a relative
    path without one in the working directory. *)
Inductive starts (pc : pcfg) (tid : N) (path : str) (s : pst) : res (N * N * list name) -> Prop :=
| St_abs n t : picks (NV pc) (SEP pc) (prefix pc) path n -> cstr path = prefix pc n ++ t -> prefix pc n <> [] \/ ~ relative (SEP pc) path ->
    starts pc tid path s (Ok (n, ROOT, comps (SEP pc) t))
| St_cwd n i : (forall m, picks (NV pc) (SEP pc) (prefix pc) path m -> prefix pc m = []) -> relative (SEP pc) path -> cwd_is pc tid s n i ->
    starts pc tid path s (Ok (n, i, comps (SEP pc) path))
| St_none : picks_none (NV pc) (SEP pc) (prefix pc) path -> ~ relative (SEP pc) path -> starts pc tid path s (Err ENOENT).
(** A path that names a volume. *)
Inductive volume_path (pc : pcfg) (path : str) : res N -> Prop :=
| Vp_ok n t : picks (NV pc) (SEP pc) (prefix pc) path n -> cstr path = prefix pc n ++ t -> Forall (fun c => c = SEP pc) t -> volume_path pc path (Ok n)
| Vp_more n t : picks (NV pc) (SEP pc) (prefix pc) path n -> cstr path = prefix pc n ++ t -> ~ Forall (fun c => c = SEP pc) t -> volume_path pc path (Err ENOENT)
| Vp_none : picks_none (NV pc) (SEP pc) (prefix pc) path -> volume_path pc path (Err ENOENT).

Section St.
Variable pc : pcfg.
Hypothesis PC : pcfg_ok pc.
Set Default Proof Using "PC".
Notation SEP := (SEP pc).
Notation NV := (NV pc).
Notation HC := (HC pc).
Notation TC := (TC pc).
Notation prefix := (prefix pc).
Notation comps := (comps SEP).
Notation VInv := (VInv pc).
Notation PInv := (PInv pc).
Notation wp := (wp pc).
Notation vdir := (vdir pc).

Definition registered (tid : N) (s : pst) : Prop := tid <> 0 /\ exists k, k < TC /\ t_id (p_t s k) = tid.
Lemma slot_spec tid s : PInv s -> p_init s = true -> registered tid s ->
  exists k, task_slot pc tid s = Some k /\ k < TC /\ t_id (p_t s k) = tid /\ (forall n i, cwd_is pc tid s n i <-> t_vol (p_t s k) = n /\ t_ino (p_t s k) = i).
Proof using.
  intros HP IN (NZ & j & Hj & Ej). unfold task_slot. destruct (first_ex (fun k => t_id (p_t s k) =? tid) TC j Hj) as (k & E); [now apply N.eqb_eq|].
  exists k. split; auto. apply first_some in E as [H1 H2]. apply N.eqb_eq in H2. split; auto. split; auto. intros n i. split; [|intros [A B]; exists k; auto].
  intros (k' & A & B & C & D). assert (k' = k) by (apply (i_d _ _ HP IN k' k); congruence). subst; auto.
Qed.
Lemma cwd_fun tid s n i n' i' : PInv s -> p_init s = true -> tid <> 0 -> cwd_is pc tid s n i -> cwd_is pc tid s n' i' -> n = n' /\ i = i'.
Proof using.
  intros HP IN NZ (k & A & B & C & D) (k' & A' & B' & C' & D'). assert (k' = k) by (apply (i_d _ _ HP IN k' k); congruence). subst; auto.
Qed.
Lemma relative_spec path : relative SEP path <-> (negb (ch path =? SEP) && negb (ch path =? 0)) = true.
Proof.
  unfold relative. destruct path as [|c p]; cbn [cstr ch].
  - split; [intros (c & t & X & _); discriminate|]. change (0 =? 0) with true. now rewrite andb_comm.
  - destruct (N.eqb_spec c 0) as [->|N0].
    + split; [intros (c & t & X & _); discriminate|]. now rewrite andb_comm.
    + rewrite andb_true_r, negb_true_iff, N.eqb_neq. split; [intros (d & t & X & Y); congruence|]. eauto.
Qed.
Lemma pick_local path n : picks NV SEP prefix path n -> cstr path = prefix n ++ cstr (skipn (strlen (prefix n)) path).
Proof.
  intros (Hn & X). rewrite (strlen_nz _ (ok_pre _ PC n Hn)). destruct X as [(_ & [E|(t & E)] & _)|(E & _)].
  - rewrite cstr_skip by (rewrite E; lia). rewrite E at 1 2. now rewrite skipn_all, app_nil_r.
  - rewrite cstr_skip by (rewrite E, app_length; lia). rewrite E at 1 2. rewrite skipn_app, skipn_all, Nat.sub_diag. reflexivity.
  - rewrite E. reflexivity.
Qed.
Lemma comps_cstr p q : cstr p = cstr q -> comps p = comps q.
Proof using. unfold PosixSpec.comps. congruence. Qed.
Lemma cstr_idem p : cstr (cstr p) = cstr p.
Proof using. induction p as [|c p IH]; auto. cbn. destruct (c =? 0) eqn:E; auto. cbn. now rewrite E, IH. Qed.
Lemma relative_comps path : relative SEP path -> comps path <> [].
Proof.
  intros H. apply relative_spec in H. apply andb_true_iff in H as [H1 H2]. apply negb_true_iff, N.eqb_neq in H1, H2.
  assert (E : skip_sep pc path = path). { destruct path as [|c p]; [auto|]. cbn in *. destruct (N.eqb_spec c SEP); [tauto|auto]. }
  rewrite (comps_cons pc PC path); [discriminate|]. rewrite E. auto.
Qed.

Lemma wp_setcur n (Q : res unit -> pst -> Prop) s : VInv s -> n < NV -> Q (Ok tt) (set_cur n s) -> wp (RedCoreVolSetCurrent pc n) Q s.
Proof using. intros HV Hn H. unfold RedCoreVolSetCurrent. replace (n <? NV) with true by (symmetry; now apply N.ltb_lt). apply wp_modify; auto. Qed.
Lemma set_cur_still n s : still s (set_cur n s).
Proof using. split; [repeat split|]; auto. Qed.

Definition start_ok (s : pst) (tid : N) (path : str) (r : res (N * N * str)) (s' : pst) : Prop :=
  match r with
  | Ok (n, i, local) => starts pc tid path s (Ok (n, i, comps local)) /\ p_cur s' = n /\ n < NV /\ i <> 0 /\ (i = ROOT \/ comps local <> []) /\
      (v_mnt (p_v s n) = true -> vdir n (p_v s n) i)
  | Err e => starts pc tid path s (Err e)
  end.
Lemma wp_Start tid path (Q : res (N * N * str) -> pst -> Prop) s : PInv s -> p_init s = true -> registered tid s ->
  (forall r s', VInv s' -> still s s' -> p_cur s' < NV -> start_ok s tid path r s' -> Q r s') -> wp (PathStartingPoint pc tid path) Q s.
Proof.
  intros HP IN RG H. pose proof (i_v _ _ HP) as HV. unfold PathStartingPoint. apply wp_catch. unfold RedPathVolumePrefixLookup.
  pose proof (prefix_lookup_spec pc PC path) as PL. pose proof (relative_spec path) as RS.
  assert (CWD : forall s1, VInv s1 -> still s s1 -> (forall m, picks NV SEP prefix path m -> prefix m = []) -> relative SEP path ->
    wp (bind (CwdGet pc tid) (fun c => bind (RedCoreVolSetCurrent pc (fst c)) (fun _ => ret (fst c, snd c, path)))) Q s1).
  { intros s1 HV1 ST NP RL. destruct (slot_spec tid s HP IN RG) as (k & SL & Hk & EK & CW). destruct (i_t _ _ HP IN k Hk) as [T1 T2].
    assert (SL1 : task_slot pc tid s1 = Some k). { destruct ST as ((_ & _ & ET & _) & _). unfold task_slot in *. now rewrite ET. }
    apply wp_bind. unfold CwdGet. assert (ET : p_t s1 = p_t s) by (destruct ST as ((_ & _ & ET & _) & _); auto).
    apply wp_act; [auto|now rewrite SL1|]. rewrite SL1. cbn [fst snd]. apply wp_bind. rewrite ET. apply wp_setcur; auto. apply wp_ret. apply H.
    - intros n Hn. apply HV1; auto.
    - eapply still_trans; [exact ST|apply set_cur_still].
    - auto.
    - assert (VD : v_mnt (p_v s (t_vol (p_t s k))) = true -> vdir (t_vol (p_t s k)) (p_v s (t_vol (p_t s k))) (t_ino (p_t s k))).
      { intros MN. destruct T2 as [->|[_ T2]]; auto. apply (J_root pc PC); auto. }
      assert (SS : starts pc tid path s (Ok (t_vol (p_t s k), t_ino (p_t s k), comps path))) by (apply St_cwd; [auto|auto|apply CW; auto]).
      assert (NZ : t_ino (p_t s k) <> 0). { destruct T2 as [->|[X T2]]; [discriminate|]. eapply (vdir_nz pc PC); eauto. }
      split; [exact SS|]. split; [reflexivity|]. split; [auto|]. split; [exact NZ|]. split; [right; now apply relative_comps|]. exact VD. }
  destruct (prefix_lookup pc path) as [n|] eqn:EP.
  - assert (Hn : n < NV) by apply PL. apply wp_bind. apply wp_setcur; auto. apply wp_ret.
    assert (HV1 : VInv (set_cur n s)) by (intros m Hm; apply HV; auto).
    pose proof (pick_local path n PL) as LC. rewrite <- andb_assoc.
    destruct (Nat.eqb_spec (strlen (prefix n)) 0) as [EL|EL]; cbn [andb].
    + assert (PE : prefix n = []). { rewrite (strlen_nz _ (ok_pre _ PC n Hn)) in EL. destruct (prefix n); [auto|discriminate]. }
      destruct (negb (ch path =? SEP) && negb (ch path =? 0)) eqn:ER.
      * apply CWD; auto; [apply set_cur_still| |now apply RS]. intros m PM. rewrite (picks_fun pc PC path m n PM PL). auto.
      * apply wp_ret. apply H; auto; [apply set_cur_still|].
        assert (SS : starts pc tid path s (Ok (n, ROOT, comps (skipn (strlen (prefix n)) path)))).
        { rewrite <- (comps_cstr (cstr _) _ (cstr_idem _)). eapply St_abs; eauto. right. intros X. apply RS in X. congruence. }
        split; [exact SS|]. split; [auto|]. split; [auto|]. split; [discriminate|]. split; [auto|]. intros MN. apply (J_root pc PC); auto.
    + apply wp_ret. apply H; auto; [apply set_cur_still|].
      assert (SS : starts pc tid path s (Ok (n, ROOT, comps (skipn (strlen (prefix n)) path)))).
      { rewrite <- (comps_cstr (cstr _) _ (cstr_idem _)). eapply St_abs; eauto. left. intros X. rewrite X in EL. apply EL. reflexivity. }
      split; [exact SS|]. split; [auto|]. split; [auto|]. split; [discriminate|]. split; [auto|]. intros MN. apply (J_root pc PC); auto.
  - apply wp_fail. change (errno_eqb ENOENT ENOENT) with true. cbn [andb].
    destruct (negb (ch path =? SEP) && negb (ch path =? 0)) eqn:ER.
    + apply CWD; auto; [apply still_refl| |now apply RS]. intros m (A & [(B & C & _)|(B & _)]); auto. destruct (PL m A) as [_ X]. tauto.
    + apply wp_fail. apply H; auto; [apply still_refl|apply HP|]. apply St_none; auto. intros X. apply RS in X. congruence.
Qed.
Lemma skip_all s : ch (skip_sep pc s) = 0 <-> Forall (fun c => c = SEP) (cstr s).
Proof.
  induction s as [|c s IH]; cbn [skip_sep cstr ch]; [split; auto|]. destruct (N.eqb_spec c SEP) as [->|NE].
  - destruct (N.eqb_spec SEP 0) as [E|_]; [now destruct (ok_sep _ PC)|]. rewrite IH. split; [intros; constructor; auto|]. inversion 1; auto.
  - cbn [ch]. destruct (N.eqb_spec c 0) as [->|N0]; [split; auto|]. split; [tauto|]. inversion 1; tauto.
Qed.
Lemma wp_VolLookup path (Q : res N -> pst -> Prop) s : PInv s ->
  (forall r s', VInv s' -> still s s' -> p_cur s' < NV -> volume_path pc path r -> match r with Ok n => p_cur s' = n | Err _ => True end -> Q r s') ->
  wp (RedPathVolumeLookup pc path) Q s.
Proof.
  intros HP H. pose proof (i_v _ _ HP) as HV. unfold RedPathVolumeLookup. apply wp_bind. unfold RedPathVolumePrefixLookup.
  pose proof (prefix_lookup_spec pc PC path) as PL. destruct (prefix_lookup pc path) as [n|] eqn:EP.
  - assert (Hn : n < NV) by apply PL. apply wp_bind. apply wp_setcur; auto. apply wp_ret. apply wp_bind.
    assert (HV1 : VInv (set_cur n s)) by (intros m Hm; apply HV; auto). pose proof (pick_local path n PL) as LC. set (t := skipn (strlen (prefix n)) path) in *.
    assert (SA : ((ch t =? 0) || IsRootDir pc t) = true <-> Forall (fun c => c = SEP) (cstr t)).
    { rewrite <- skip_all. unfold IsRootDir. destruct t as [|c t']; [cbn; tauto|]. cbn [ch skip_sep]. rewrite orb_true_iff, andb_true_iff, !N.eqb_eq.
      destruct (N.eqb_spec c SEP) as [->|NE]; [|cbn [ch]; tauto]. pose proof (ok_sep _ PC). tauto. }
    destruct ((ch t =? 0) || IsRootDir pc t) eqn:ET.
    + apply wp_ret. apply wp_ret. apply H; auto; [apply set_cur_still|]. econstructor; eauto. now apply SA.
    + apply wp_fail. apply H; auto; [apply set_cur_still|]. eapply Vp_more; eauto. intros X. apply SA in X. discriminate.
  - apply wp_fail. apply H; auto; [apply still_refl|apply HP|]. apply Vp_none; auto.
Qed.
End St.
