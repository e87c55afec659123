(** Path resolution: the code of path.c follows the specification of PosixSpec.v. *)
From Verif Require Import Base Count FsState FsDir FsSpec FsSpecN FsCoreP2 FsMach FsVolume FsVolumeP FsReach PropFs PropNs Posix PosixSpec PosixWp.
Ltac Zify.zify_post_hook ::= idtac.

Section Str.
Variable pc : pcfg.
Hypothesis PC : pcfg_ok pc.
Set Default Proof Using "PC".
Notation SEP := (SEP pc).
Notation comps := (comps SEP).
Notation name_of := (name_of pc).
Notation skip_sep := (skip_sep pc).

Lemma comps_sep s : comps (SEP :: s) = comps s.
Proof. unfold comps. cbn [cstr]. destruct (N.eqb_spec SEP 0) as [E|_]; [now destruct (ok_sep _ PC)|]. cbn [split]. rewrite N.eqb_refl. reflexivity. Qed.
Lemma comps_skip s : comps (skip_sep s) = comps s.
Proof. induction s as [|c s IH]; auto. cbn [Posix.skip_sep]. destruct (N.eqb_spec c SEP) as [->|]; auto. rewrite comps_sep. auto. Qed.
Lemma split_name q : exists X, split SEP (cstr q) = name_of q :: X /\ filter nonempty X = comps (skipn (length (name_of q)) q).
Proof.
  induction q as [|c q IH]; [exists []; auto|]. unfold comps. cbn [cstr Posix.name_of]. destruct (N.eqb_spec c 0) as [->|H0]; cbn [orb].
  - exists []. split; auto.
  - cbn [split]. destruct (N.eqb_spec c SEP) as [->|H1].
    + exists (split SEP (cstr q)). split; auto. cbn [length skipn]. symmetry. apply comps_sep.
    + destruct IH as (X & -> & E). exists X. split; auto.
Qed.
Lemma skip_hd s : ch (skip_sep s) <> 0 -> name_of (skip_sep s) <> [].
Proof.
  induction s as [|c s IH]; cbn [Posix.skip_sep]; [cbn; tauto|]. destruct (N.eqb_spec c SEP) as [->|H]; auto. cbn. intros H0. destruct (N.eqb_spec c 0); [tauto|].
  destruct (N.eqb_spec c SEP); [tauto|]. discriminate.
Qed.
Lemma comps_nil s : ch (skip_sep s) = 0 -> comps s = [].
Proof.
  intros H. rewrite <- comps_skip. destruct (skip_sep s) as [|c q]; auto. cbn in H. subst c. reflexivity.
Qed.
Lemma comps_cons s : ch (skip_sep s) <> 0 -> comps s = name_of (skip_sep s) :: comps (skipn (length (name_of (skip_sep s))) (skip_sep s)).
Proof.
  intros H. rewrite <- (comps_skip s). pose proof (skip_hd s H) as NE. set (q := skip_sep s) in *. destruct (split_name q) as (X & E & F).
  unfold PosixSpec.comps at 1. rewrite E. cbn [filter]. destruct (name_of q) as [|c l] eqn:EN; [tauto|]. cbn [nonempty]. now rewrite F.
Qed.
Lemma name_nozero s : nozero (name_of s).
Proof using.
  intros k Hk. unfold nlen, lenN in Hk. unfold nbyte, nthN. revert k Hk. induction s as [|c s IH]; cbn [Posix.name_of]; intros k Hk; [cbn in Hk; lia|].
  destruct (N.eqb_spec c 0) as [->|H0]; cbn [orb] in *; [cbn in Hk; lia|]. destruct (N.eqb_spec c SEP) as [->|H1]; [cbn in Hk; lia|].
  cbn [length] in Hk. destruct (N.to_nat k) as [|m] eqn:E; cbn [nth]; auto. specialize (IH (N.of_nat m)). rewrite Nat2N.id in IH. apply IH. lia.
Qed.
Lemma name_nsep s : nsep pc (name_of s).
Proof using.
  unfold nsep. induction s as [|c s IH]; cbn [Posix.name_of]; [auto|]. destruct (N.eqb_spec c 0) as [->|H0]; cbn [orb In]; [tauto|].
  destruct (N.eqb_spec c SEP) as [->|H1]; cbn [In]; tauto.
Qed.
Lemma name_len s : (length (name_of s) <= length s)%nat.
Proof using. induction s as [|c s IH]; cbn [Posix.name_of]; auto. destruct ((c =? 0) || (c =? SEP)); cbn [length]; lia. Qed.
Lemma skip_len s : (length (skip_sep s) <= length s)%nat.
Proof using. induction s as [|c s IH]; cbn [Posix.skip_sep]; auto. destruct (c =? SEP); cbn [length]; lia. Qed.
Lemma is_dot_spec q : IsDot pc q = true <-> name_of q = dot1.
Proof.
  pose proof (ok_sepdot _ PC) as SD. assert (SD' : (DOT =? SEP) = false) by (apply N.eqb_neq; congruence).
  unfold IsDot, is_end, dot1. destruct q as [|c q]; [cbn; split; discriminate|]. cbn [ch tl Posix.name_of].
  destruct (N.eqb_spec c DOT) as [->|H]; cbn [andb].
  - change (DOT =? 0) with false. rewrite SD'. cbn [orb]. destruct q as [|d q]; cbn [ch Posix.name_of].
    + cbn. tauto.
    + destruct ((d =? 0) || (d =? SEP)); split; auto; discriminate.
  - split; [discriminate|]. destruct ((c =? 0) || (c =? SEP)); [discriminate|]. injection 1 as -> _. tauto.
Qed.
Lemma is_dotdot_spec q : IsDotDot pc q = true <-> name_of q = dot2.
Proof.
  pose proof (ok_sepdot _ PC) as SD. assert (SD' : (DOT =? SEP) = false) by (apply N.eqb_neq; congruence).
  unfold IsDotDot, is_end, dot2. destruct q as [|c q]; [cbn; split; discriminate|]. cbn [ch tl Posix.name_of].
  destruct (N.eqb_spec c DOT) as [->|H]; cbn [andb].
  - change (DOT =? 0) with false. rewrite SD'. cbn [orb]. destruct q as [|d q]; cbn [ch tl Posix.name_of]; [cbn; split; discriminate|].
    destruct (N.eqb_spec d DOT) as [->|H]; cbn [andb].
    + change (DOT =? 0) with false. rewrite SD'. cbn [orb]. destruct q as [|e q]; cbn [ch Posix.name_of]; [cbn; tauto|].
      destruct ((e =? 0) || (e =? SEP)); split; auto; discriminate.
    + split; [discriminate|]. destruct ((d =? 0) || (d =? SEP)); [discriminate|]. injection 1 as -> _. tauto.
  - split; [discriminate|]. destruct ((c =? 0) || (c =? SEP)); [discriminate|]. injection 1 as -> _. tauto.
Qed.
End Str.

Section Walk.
Variable pc : pcfg.
Hypothesis PC : pcfg_ok pc.
Set Default Proof Using "PC".
Notation SEP := (SEP pc).
Notation NV := (NV pc).
Notation MM := (MMASK pc).
Notation TM := (TMASK pc).
Notation TD := (TDEF pc).
Notation comps := (comps SEP).
Notation name_of := (name_of pc).
Notation skip_sep := (skip_sep pc).
Notation VOK := (VOK pc).
Notation VInv := (VInv pc).
Notation wp := (wp pc).
Notation vask := (vask pc).
Notation vdir := (vdir pc).
Notation vfile := (vfile pc).
Definition vrstep (n : N) := rstep (gs pc n) (ATOM pc n) MM TM.
Definition vresolve (n : N) := resolve (gs pc n) (ATOM pc n) MM TM.

(** The state of a mounted volume. *)
Lemma VOK_W n v : n < NV -> VOK n v -> v_mnt v = true -> exists W C, vsim pc n v (Mnt W C (s_ro (v_s v)) (v_mask v)) /\ cleanf pc W /\ cleanf pc C.
Proof.
  intros Hn (R & a & SA & CA) M. destruct a as [W C ro mask|X mask]; [|destruct SA; congruence].
  destruct SA as (A & B & D). subst. exists W, C. split; [split; auto|exact CA].
Qed.
Lemma vWF n v W C ro mask : n < NV -> vsim pc n v (Mnt W C ro mask) -> WF W.
Proof. intros Hn SA. exact (Sim_WF _ (ok_g _ PC n Hn) _ MM TM TD _ _ _ _ _ SA). Qed.
Lemma vdir_W n v W C ro mask i : n < NV -> vsim pc n v (Mnt W C ro mask) -> (vdir n v i <-> isdir W i).
Proof. intros Hn SA. exact (is_dir_W _ (ok_g _ PC n Hn) _ MM TM TD _ _ _ _ _ SA i). Qed.
Lemma vfile_W n v W C ro mask i : n < NV -> vsim pc n v (Mnt W C ro mask) -> (vfile n v i <-> isfile W i).
Proof. intros Hn SA. exact (is_file_W _ (ok_g _ PC n Hn) _ MM TM TD _ _ _ _ _ SA i). Qed.
Lemma vpar_W n v W C ro mask i p : n < NV -> vsim pc n v (Mnt W C ro mask) -> (vask n v (CDirParent i) = Ok (ONum p) <-> exists sl, W i = Some (ADir p sl)).
Proof. intros Hn SA. exact (parent_W _ (ok_g _ PC n Hn) _ MM TM TD _ _ _ _ _ SA i p). Qed.
Lemma vfound_W n v W C ro mask p nm i : n < NV -> vsim pc n v (Mnt W C ro mask) -> nozero nm -> (vask n v (CLookup p nm) = Ok (ONum i) <-> named W p nm i).
Proof. intros Hn SA NZ. exact (found_W _ (ok_g _ PC n Hn) _ MM TM TD _ _ _ _ _ SA p nm i NZ). Qed.
Lemma vask_ok n v W C ro mask c : n < NV -> vsim pc n v (Mnt W C ro mask) -> reads c = true -> legal c -> read_ok (NMAX (gs pc n)) c W (vask n v c).
Proof. intros Hn SA. exact (ask_ok _ (ok_g _ PC n Hn) _ MM TM TD _ _ _ _ _ c SA). Qed.

(** [i] exists, and if it is a directory then its parent is [pi]. *)
Definition J (n : N) (v : vol) (i pi : N) : Prop := vfile n v i \/ vdir n v i /\ vask n v (CDirParent i) = Ok (ONum pi).
Lemma J_exists n v i pi : J n v i pi -> vfile n v i \/ vdir n v i.
Proof using. unfold J. tauto. Qed.
Lemma J_look n v i nm j : n < NV -> VOK n v -> v_mnt v = true -> nozero nm -> vask n v (CLookup i nm) = Ok (ONum j) -> J n v j i /\ vdir n v i /\ j <> ROOT.
Proof.
  intros Hn HV MN NZ H. destruct (VOK_W n v Hn HV MN) as (W & C & SA & _). pose proof (vWF _ _ _ _ _ _ Hn SA) as WF.
  apply (vfound_W n v W C _ _ i nm j Hn SA NZ) in H. destruct H as (k & E). destruct (wf_ent _ WF _ _ _ _ E) as [X1 X2].
  assert (D : isdir W i) by (destruct E as (p & sl & E1 & _); exists p, sl; auto).
  split; [|split; auto; apply (vdir_W n v W C _ _ i Hn SA); auto].
  destruct (W j) as [[nl sz b|p sl]|] eqn:EJ; [| |tauto].
  - left. apply (vfile_W n v W C _ _ j Hn SA). exists nl, sz, b; auto.
  - right. split; [apply (vdir_W n v W C _ _ j Hn SA); exists p, sl; auto|]. apply (vpar_W n v W C _ _ j i Hn SA). exists sl.
    destruct (wf_dir _ WF _ _ _ EJ X2) as (k' & nm' & _ & U). destruct (U _ _ _ E) as [-> _]. auto.
Qed.
Lemma J_root n v : n < NV -> VOK n v -> v_mnt v = true -> vdir n v ROOT /\ vask n v (CDirParent ROOT) = Ok (ONum 0).
Proof.
  intros Hn HV MN. destruct (VOK_W n v Hn HV MN) as (W & C & SA & _). pose proof (vWF _ _ _ _ _ _ Hn SA) as WF.
  destruct (wf_root _ WF) as (sl & E). split; [apply (vdir_W n v W C _ _ _ Hn SA); exists 0, sl; auto|]. apply (vpar_W n v W C _ _ _ _ Hn SA). eauto.
Qed.
Lemma J_up n v i pi : n < NV -> VOK n v -> v_mnt v = true -> vask n v (CDirParent i) = Ok (ONum pi) -> i <> ROOT ->
  vdir n v pi /\ exists p, vask n v (CDirParent pi) = Ok (ONum p).
Proof.
  intros Hn HV MN H NR. destruct (VOK_W n v Hn HV MN) as (W & C & SA & _). pose proof (vWF _ _ _ _ _ _ Hn SA) as WF.
  destruct (proj1 (vpar_W n v W C _ _ _ _ Hn SA) H) as (sl & E). destruct (wf_dir _ WF _ _ _ E NR) as (k & nm & (p & sl' & E' & _) & _).
  split; [apply (vdir_W n v W C _ _ _ Hn SA); exists p, sl'; auto|]. exists p. apply (vpar_W n v W C _ _ _ _ Hn SA). eauto.
Qed.
Lemma J_dir n v i : n < NV -> VOK n v -> v_mnt v = true -> vdir n v i -> exists p, vask n v (CDirParent i) = Ok (ONum p).
Proof.
  intros Hn HV MN H. destruct (VOK_W n v Hn HV MN) as (W & C & SA & _). destruct (proj1 (vdir_W n v W C _ _ i Hn SA) H) as (p & sl & E).
  exists p. apply (vpar_W n v W C _ _ _ _ Hn SA). eauto.
Qed.
Lemma file_par n v i : n < NV -> VOK n v -> v_mnt v = true -> vfile n v i -> vask n v (CDirParent i) = Err ENOTDIR.
Proof.
  intros Hn HV MN H. destruct (VOK_W n v Hn HV MN) as (W & C & SA & _). pose proof (vask_ok n v W C _ _ (CDirParent i) Hn SA eq_refl I) as R.
  destruct (proj1 (vfile_W n v W C _ _ i Hn SA) H) as (nl & sz & b & E). cbn in R. destruct (vask n v (CDirParent i)) as [o|e].
  - destruct o; try contradiction. destruct R as [(-> & _)|(_ & sl & X)]; [|congruence]. destruct (wf_root _ (vWF _ _ _ _ _ _ Hn SA)) as (sl & X). congruence.
  - destruct R as [(_ & X)|(-> & _)]; [congruence|auto].
Qed.
Lemma vdir_nz n v i : n < NV -> VOK n v -> v_mnt v = true -> vdir n v i -> i <> 0.
Proof.
  intros Hn HV MN H ->. destruct (VOK_W n v Hn HV MN) as (W & C & SA & _). destruct (proj1 (vdir_W n v W C _ _ _ Hn SA) H) as (p & sl & E).
  pose proof (wf_none _ (vWF _ _ _ _ _ _ Hn SA)). congruence.
Qed.
Lemma par0_root n v i : n < NV -> VOK n v -> v_mnt v = true -> vask n v (CDirParent i) = Ok (ONum 0) -> i = ROOT.
Proof.
  intros Hn HV MN H. destruct (N.eq_dec i ROOT) as [|NR]; auto. exfalso. destruct (J_up n v i 0 Hn HV MN H NR) as [D _]. exact (vdir_nz n v 0 Hn HV MN D eq_refl).
Qed.
Lemma vdir_not_file n v i : vdir n v i -> vfile n v i -> False.
Proof using. intros (a & b & c & E) (a' & b' & c' & E'). congruence. Qed.

(** ** Wrappers *)
Lemma wp_core_num c (Q : res N -> pst -> Prop) s : VInv s -> p_cur s < NV -> legal c -> reads c = true ->
  (forall s', VInv s' -> same s s' -> Q (match vask (p_cur s) (p_v s (p_cur s)) c with Ok (ONum n) => Ok n | Ok _ => Err EFUBAR | Err e => Err e end) s') -> wp (core_num pc c) Q s.
Proof.
  intros HV HC LG RD H. unfold core_num. apply wp_bind. apply wp_read; auto. intros s' HV' SM. specialize (H s' HV' SM).
  destruct (vask _ _ c) as [o|e]; auto. destruct o; exact H.
Qed.
Definition vstat4 n v i : res (bool * N * N * N) := match vask n v (CStat i) with Ok (OStat x) => Ok x | Ok _ => Err EFUBAR | Err e => Err e end.
Lemma wp_core_stat i (Q : res (bool * N * N * N) -> pst -> Prop) s : VInv s -> p_cur s < NV ->
  (forall s', VInv s' -> same s s' -> Q (vstat4 (p_cur s) (p_v s (p_cur s)) i) s') -> wp (core_stat pc i) Q s.
Proof.
  intros HV HC H. unfold core_stat. apply wp_bind. apply wp_read; auto; [exact I|]. intros s' HV' SM. specialize (H s' HV' SM). unfold vstat4 in H.
  destruct (vask _ _ (CStat i)) as [o|e]; auto. destruct o; exact H.
Qed.
Lemma vstat4_dir n v i : vdir n v i -> exists x, vstat4 n v i = Ok x /\ st_dir x = true.
Proof using. intros (a & b & c & E). unfold vstat4, PosixWp.vask. rewrite E. eexists; split; reflexivity. Qed.
Lemma vstat4_file n v i : vfile n v i -> exists x, vstat4 n v i = Ok x /\ st_dir x = false.
Proof using. intros (a & b & c & E). unfold vstat4, PosixWp.vask. rewrite E. eexists; split; reflexivity. Qed.
Lemma vstat4_inv n v i x : vstat4 n v i = Ok x -> if st_dir x then vdir n v i else vfile n v i.
Proof using.
  unfold vstat4, PosixWp.vdir, PosixWp.vfile, is_dir, is_file, PosixWp.vask. destruct (ask _ _ _ _ v (CStat i)) as [o|e]; [|discriminate]. destruct o; try discriminate.
  injection 1 as ->. destruct x as [[[d nl] sz] bl]. cbn. destruct d; eauto.
Qed.
Lemma wp_mustbe i (Q : res unit -> pst -> Prop) s : VInv s -> p_cur s < NV -> v_mnt (p_v s (p_cur s)) = true ->
  vfile (p_cur s) (p_v s (p_cur s)) i \/ vdir (p_cur s) (p_v s (p_cur s)) i ->
  (forall s', VInv s' -> same s s' -> vdir (p_cur s) (p_v s (p_cur s)) i -> Q (Ok tt) s') ->
  (forall s', VInv s' -> same s s' -> vfile (p_cur s) (p_v s (p_cur s)) i -> Q (Err ENOTDIR) s') -> wp (InodeMustBeDir pc i) Q s.
Proof.
  intros HV HC MN HE H1 H2. unfold InodeMustBeDir. destruct (N.eqb_spec i ROOT) as [->|NR].
  - apply wp_ret. apply H1; [auto|apply same_refl|]. exact (proj1 (J_root _ _ HC (HV _ HC) MN)).
  - apply wp_bind. apply wp_core_stat; auto. intros s' HV' SM. destruct HE as [HE|HE].
    + destruct (vstat4_file _ _ _ HE) as (x & -> & E). rewrite E. apply H2; auto.
    + destruct (vstat4_dir _ _ _ HE) as (x & -> & E). rewrite E. apply H1; auto.
Qed.

(** ** The loop, resolving every component *)
Lemma rstep_dot1 n v i : vdir n v i -> vrstep n v i dot1 = Ok i.
Proof using. intros (a & b & c & E). unfold vrstep, rstep. destruct (list_eq_dec N.eq_dec dot1 dot1); [|tauto]. now rewrite E. Qed.
Lemma rstep_dot1f n v i : vfile n v i -> vrstep n v i dot1 = Err ENOTDIR.
Proof using. intros (a & b & c & E). unfold vrstep, rstep. destruct (list_eq_dec N.eq_dec dot1 dot1); [|tauto]. now rewrite E. Qed.
Lemma rstep_dot2 n v i : vrstep n v i dot2 = match vask n v (CDirParent i) with Ok (ONum p) => Ok (if i =? ROOT then ROOT else p) | Ok _ => Err EFUBAR | Err e => Err e end.
Proof using. unfold vrstep, rstep. destruct (list_eq_dec N.eq_dec dot2 dot1); [discriminate|]. destruct (list_eq_dec N.eq_dec dot2 dot2); [|tauto]. unfold PosixWp.vask. destruct (ask _ _ _ _ v _) as [[]|]; reflexivity. Qed.
Lemma rstep_name n v i c : c <> dot1 -> c <> dot2 -> vrstep n v i c = match vask n v (CLookup i c) with Ok (ONum j) => Ok j | Ok _ => Err EFUBAR | Err e => Err e end.
Proof using. intros H1 H2. unfold vrstep, rstep. destruct (list_eq_dec N.eq_dec c dot1); [tauto|]. destruct (list_eq_dec N.eq_dec c dot2); [tauto|]. unfold PosixWp.vask. destruct (ask _ _ _ _ v _) as [[]|]; reflexivity. Qed.

Definition to_name (n : N) := resolve_parent (gs pc n) (ATOM pc n) MM TM.
Lemma to_name_cons n v i c l : l <> [] -> to_name n v i (c :: l) = match vrstep n v i c with Ok j => to_name n v j l | Err e => Err e end.
Proof using.
  intros NE. unfold to_name, resolve_parent. cbn [rev]. destruct (rev l) as [|x r] eqn:E; [exfalso; apply NE; rewrite <- (rev_involutive l), E; reflexivity|].
  cbn [app]. rewrite rev_app_distr. cbn [rev app resolve]. fold (vrstep n). destruct (vrstep n v i c); reflexivity.
Qed.
Lemma to_name_one n v i c : to_name n v i [c] = if list_eq_dec N.eq_dec c dot1 then match vrstep n v i c with Ok t => Ok (t, None) | Err e => Err e end
              else if list_eq_dec N.eq_dec c dot2 then match vrstep n v i c with Ok t => Ok (t, None) | Err e => Err e end
              else Ok (i, Some c).
Proof using. reflexivity. Qed.
Definition walked (n : N) (v : vol) (i : N) (p : str) (want : bool) (last0 : str) (r : res (N * N * str)) : Prop :=
  if want then match vresolve n v i (comps p) with Ok j => exists pj l, r = Ok (j, pj, l) /\ J n v j pj | Err e => r = Err e end
  else match to_name n v i (comps p) with
       | Ok (j, None) => exists pj l, r = Ok (j, pj, l) /\ J n v j pj /\ (comps p = [] -> l = last0) /\ (comps p <> [] -> (name_of l = dot1 \/ name_of l = dot2) /\ vdir n v j)
       | Ok (j, Some c) => exists l, r = Ok (j, j, l) /\ name_of l = c /\ c <> dot1 /\ c <> dot2 /\ (vfile n v j \/ vdir n v j)
       | Err e => r = Err e
       end.
Lemma walk_spec want : forall fuel p last i pi s, (length p < fuel)%nat -> VInv s -> p_cur s < NV -> v_mnt (p_v s (p_cur s)) = true ->
  J (p_cur s) (p_v s (p_cur s)) i pi ->
  wp (walk_loop pc fuel p last i pi want) (fun r s' => VInv s' /\ same s s' /\ walked (p_cur s) (p_v s (p_cur s)) i p want last r) s.
Proof.
  induction fuel as [|fuel IH]; intros p last i pi s HL HV HC MN HJ; [lia|]. cbn [walk_loop].
  pose proof (skip_len pc p) as SL. pose proof (HV _ HC) as VK.
  destruct (N.eqb_spec (ch (skip_sep p)) 0) as [E0|E0].
  { apply wp_ret. split; auto. split; [apply same_refl|]. unfold walked. rewrite (comps_nil pc PC p E0). destruct want; cbn.
    - exists pi, last. auto.
    - exists pi, last. split; auto. split; auto. split; auto. tauto. }
  pose proof (comps_cons pc PC p E0) as CC. set (q := skip_sep p) in *. set (nm := name_of q) in *. set (rst := skipn (length nm) q) in *.
  pose proof (name_nozero pc q) as NZ. fold nm in NZ.
  assert (LR : (length rst < fuel)%nat).
  { unfold rst. rewrite skipn_length. pose proof (skip_hd pc PC p E0) as NE. fold q in NE. fold nm in NE. pose proof (name_len pc q) as NLN. fold nm in NLN.
    assert (length nm <> 0%nat) by (destruct nm; [tauto|discriminate]). clearbody nm q. lia. }
  assert (NXT : forall s1 j pj, VInv s1 -> same s s1 -> vrstep (p_cur s) (p_v s (p_cur s)) i nm = Ok j -> J (p_cur s) (p_v s (p_cur s)) j pj ->
     (comps rst = [] -> want = false -> (nm = dot1 \/ nm = dot2) /\ vdir (p_cur s) (p_v s (p_cur s)) j) ->
     wp (walk_loop pc fuel rst q j pj want) (fun r s' => VInv s' /\ same s s' /\ walked (p_cur s) (p_v s (p_cur s)) i p want last r) s1).
  { intros s1 j pj HV1 SM ST HJ1 HLST. pose proof SM as (RS & CU & VE).
    eapply wp_conseq; [apply (IH rst q j pj s1)|]; auto; rewrite ?CU, ?VE; auto.
    intros r s2 (HV2 & SM2 & WK). split; auto. split; [eapply same_trans; eauto|].
    unfold walked in *. rewrite CC. destruct want.
    - unfold vresolve in *. cbn [resolve]. fold (vrstep (p_cur s)). now rewrite ST.
    - destruct (comps rst) as [|c l] eqn:ER.
      + rewrite to_name_one. cbn in WK. destruct WK as (pj' & l' & -> & HJ2 & HL2 & _). specialize (HL2 eq_refl). subst l'. destruct (HLST eq_refl eq_refl) as [HDT HDJ].
        destruct (list_eq_dec N.eq_dec nm dot1) as [E1|N1].
        * rewrite ST. exists pj', q. split; auto. split; auto. split; [intros X0; discriminate X0|auto].
        * destruct (list_eq_dec N.eq_dec nm dot2) as [E2|N2]; [|tauto].
          rewrite ST. exists pj', q. split; auto. split; auto. split; [intros X0; discriminate X0|auto].
      + rewrite to_name_cons by discriminate. rewrite ST. destruct (to_name _ _ j (c :: l)) as [[t [c'|]]|]; auto.
        destruct WK as (pj' & l' & A & B' & _ & D). exists pj', l'. split; auto. split; auto. split; [intros X0; discriminate X0|]. intros _. apply D. discriminate. }
  assert (ERR : forall s1 e, VInv s1 -> same s s1 -> vrstep (p_cur s) (p_v s (p_cur s)) i nm = Err e -> (comps rst = [] -> want = false -> nm = dot1 \/ nm = dot2) ->
     VInv s1 /\ same s s1 /\ walked (p_cur s) (p_v s (p_cur s)) i p want last (Err e)).
  { intros s1 e HV1 SM ST HLST. split; auto. split; auto. unfold walked. rewrite CC. destruct want.
    - unfold vresolve. cbn [resolve]. fold (vrstep (p_cur s)). now rewrite ST.
    - destruct (comps rst) as [|c l] eqn:ER.
      + rewrite to_name_one, ST. specialize (HLST eq_refl eq_refl). destruct (list_eq_dec N.eq_dec nm dot1); auto. destruct (list_eq_dec N.eq_dec nm dot2); tauto.
      + rewrite to_name_cons by discriminate. now rewrite ST. }
  pose proof (is_dot_spec pc PC q) as D1. pose proof (is_dotdot_spec pc PC q) as D2. fold nm in D1, D2.
  destruct (IsDot pc q) eqn:ED1; [|destruct (IsDotDot pc q) eqn:ED2].
  - assert (E : nm = dot1) by (apply D1; auto). apply wp_bind. apply wp_mustbe; auto; [apply J_exists in HJ; auto| |].
    + intros s1 HV1 SM DD. replace (skipn 1 q) with rst by (unfold rst; rewrite E; reflexivity). apply (NXT s1); auto. rewrite E. apply rstep_dot1; auto. 
    + intros s1 HV1 SM FF. apply ERR; auto. rewrite E. apply rstep_dot1f; auto.
  - assert (E : nm = dot2) by (apply D2; auto). apply wp_bind. apply wp_mustbe; auto; [apply J_exists in HJ; auto| |].
    + intros s1 HV1 SM DD. pose proof SM as (RS & CU & VE). apply wp_bind.
      assert (PI : vask (p_cur s) (p_v s (p_cur s)) (CDirParent i) = Ok (ONum pi)). { destruct HJ as [HJ|HJ]; [destruct (vdir_not_file _ _ _ DD HJ)|apply HJ]. }
      set (i' := if i =? ROOT then i else pi).
      assert (UP : vdir (p_cur s) (p_v s (p_cur s)) i' /\ exists pp, vask (p_cur s) (p_v s (p_cur s)) (CDirParent i') = Ok (ONum pp)).
      { unfold i'. destruct (N.eqb_spec i ROOT) as [->|NR]; [split; eauto|]. eapply J_up; eauto. }
      destruct UP as (DI & pp & PP).
      apply wp_core_num; auto; [now rewrite CU|exact I|]. intros s2 HV2 SM2. rewrite CU, VE, PP.
      replace (skipn 2 q) with rst by (unfold rst; rewrite E; reflexivity). apply (NXT s2); auto; [eapply same_trans; eauto| |].
      * rewrite E, rstep_dot2, PI. unfold i'. destruct (N.eqb_spec i ROOT) as [->|]; auto.
      * right. auto.
    + intros s1 HV1 SM FF. apply ERR; auto. rewrite E, rstep_dot2. now rewrite (file_par _ _ _ HC VK MN FF).
  - assert (N1 : nm <> dot1) by (intros X; apply D1 in X; congruence). assert (N2 : nm <> dot2) by (intros X; apply D2 in X; congruence).
    fold nm. fold rst. apply wp_bind.
    assert (MC : PathHasMoreComponents pc rst = false -> comps rst = []) by (unfold PathHasMoreComponents; intros X; apply negb_false_iff, N.eqb_eq in X; apply comps_nil; auto).
    assert (MC' : PathHasMoreComponents pc rst = true -> comps rst <> []).
    { unfold PathHasMoreComponents. intros X. apply negb_true_iff, N.eqb_neq in X. rewrite (comps_cons pc PC rst X). discriminate. }
    destruct (PathHasMoreComponents pc rst || want) eqn:EM.
    + assert (HX : comps rst = [] -> want = false -> nm = dot1 \/ nm = dot2).
      { intros X Y. apply orb_true_iff in EM as [EM|EM]; [|congruence]. destruct (MC' EM X). }
      apply wp_core_num; auto. intros s1 HV1 SM. pose proof SM as (RS & CU & VE). pose proof (rstep_name (p_cur s) (p_v s (p_cur s)) i nm N1 N2) as RS1.
      destruct (vask (p_cur s) (p_v s (p_cur s)) (CLookup i nm)) as [o|e] eqn:EL; [destruct o|]; try (apply ERR; auto; fail).
      apply (NXT s1); auto; [eapply J_look; eauto|]. intros X Y. destruct (HX X Y); tauto.
    + apply wp_ret. apply orb_false_iff in EM as [EM ->]. specialize (MC EM). destruct fuel as [|fuel']; [lia|]. cbn [walk_loop].
      unfold PathHasMoreComponents in EM. apply negb_false_iff in EM. rewrite EM. apply wp_ret. split; auto. split; [apply same_refl|].
      unfold walked. rewrite CC, MC, to_name_one. destruct (list_eq_dec N.eq_dec nm dot1); [tauto|]. destruct (list_eq_dec N.eq_dec nm dot2); [tauto|].
      exists q. split; auto. split; auto. split; auto. split; auto. apply (J_exists _ _ _ _ HJ).
Qed.
End Walk.
