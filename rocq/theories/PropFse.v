(** The FSE API (fse.c): C42 (transaction points, power loss, rollback) and C43 (contents of files).

    Everything is said about volumes that can be reached from unformatted media by an arbitrary history of FSE
    calls, evictions of dirty buffers and power losses ([fhistory], [freach]), in terms of the results that FSE calls
    return ([fexec], [fshows]). *)
From Verif Require Import Base Count FsState FsImap FsInode FsData FsTree FsImapProof FsInv FsStep FsBranch FsRead FsWrite FsVol FsVol2 FsVol3 FsVol4 FsWp FsDir FsDirP FsCore FsWr FsRo FsSpec FsSpecP FsCoreP FsCoreP2 FsCoreP3 FsCoreP4 FsCoreP5 FsMach FsVolume FsVolumeG FsFormat FsReach PropFs PropFull FseSpec FseVol FseReach.
Ltac Zify.zify_post_hook ::= idtac.

Section Defs.
Variable g : cfg.
Variable atom : bool.
Variable MM TM TD : N.   (* RED_MOUNT_MASK, RED_TRANSACT_MASK, REDCONF_TRANSACT_DEFAULT *)
Notation fexec := (fexec g atom MM TM).

(** After power-on with unformatted media, the events [t] happened and the volume is now [v]. *)
Definition fhistory (t : list fevent) (v : vol) : Prop := exists d, unformatted d /\ fsteps g atom MM TM TD (boot TD d) t v.
Definition freach (v : vol) : Prop := exists t, fhistory t v.
(** Every RedFseRead and RedFseSizeGet on the mounted volume [v] gives what the files [W] say, and changes nothing. *)
Definition fshows (v : vol) (W : ffs) : Prop :=
  v_mnt v = true /\ forall c o1 o2, freads c = true -> exists r t, fexec c o1 o2 v = (r, v, t) /\ fread_ok c W r.
(** Mounting the media [d] after power-on succeeds and shows [W]. *)
Definition fmounts (d : dev) (W : ffs) : Prop :=
  forall o1 o2, exists v, fexec FMount o1 o2 (boot TD d) = (Ok FUnit, v, []) /\ fshows v W.
(** The files [W] survive a power loss now: whatever dirty buffers have been written and whatever unflushed writes
    are lost or torn. *)
Definition fdurable (v : vol) (W : ffs) : Prop := forall d d', mayhap (dirty v) (v_d v) d -> lose atom d d' -> fmounts d' W.
End Defs.

(** A successful call on volume [v] that is a transaction point. *)
Definition fcommits (v : vol) (c : fcall) : Prop :=
  c = FTransact \/ c = FMount /\ v_mnt v = false \/ fmodifies c = true /\ has (v_mask v) (fevbit c) = true.
(** Calls during which no transaction point is made; [mask] is the transaction mask before them. *)
Fixpoint fquiet (TM mask : N) (t : list fevent) : Prop :=
  match t with
  | [] => True
  | FECall c r :: t =>
    match c with
    | FTransact | FUnmount => False
    | FWrite _ _ _ _ | FTruncate _ _ => has mask (fevbit c) = false /\ has mask T_VOLFULL = false /\ fquiet TM mask t
    | FMaskSet m => fquiet TM (if N.land m TM =? m then m else mask) t
    | _ => fquiet TM mask t
    end
  | FECrash _ :: _ => False
  end.
(** The files after calls with these results, by what the calls say they did. *)
Definition fapply (W : ffs) (e : fevent) : ffs :=
  match e with
  | FECall (FWrite i off len src) (Ok (FNum n)) => fun j =>
      if (j =? i) && (0 <? n) then match W i with Some (sz, b) => Some (N.max sz (off + n), fun x => if (off <=? x) && (x <? off + n) then src (x - off) else b x) | None => None end else W j
  | FECall (FTruncate i size) (Ok FUnit) => fun j =>
      if j =? i then match W i with Some (sz, b) => Some (size, fun x => if x <? size then b x else 0) | None => None end else W j
  | _ => W
  end.
(** Neither a power loss nor an unmount or rollback, all of which may go back to an earlier state. *)
Definition fforward (e : fevent) : Prop := match e with FECrash _ => False | FECall FUnmount _ | FECall FRollback _ => False | _ => True end.

Section P.
Variable g : cfg.
Hypothesis OK : cfg_ok g.
Variable atom : bool.
Variable MM TM TD : N.
Set Default Proof Using "All".
Notation fexec := (fexec g atom MM TM).
Notation fstep := (fstep g atom MM TM TD).
Notation fsteps := (fsteps g atom MM TM TD).
Notation fastep := (fastep (INODE_SIZE_MAX g) (ICNT g) TM TD).
Notation fasteps := (fasteps (INODE_SIZE_MAX g) (ICNT g) TM TD).
Notation fhistory := (fhistory g atom MM TM TD).
Notation freach := (freach g atom MM TM TD).
Notation fshows := (fshows g atom MM TM).
Notation fmounts := (fmounts g atom MM TM TD).
Notation fdurable := (fdurable g atom MM TM TD).
Notation FSim := (FSim g atom).
Notation good := (good g).
Notation MX := (INODE_SIZE_MAX g).

Lemma FSim_mnt v W C mask : FSim v (FM W C mask) -> v_mnt v = true.
Proof. intros (F & G & (? & ? & X) & _). apply X. Qed.
Lemma FSim_shows v W C mask : FSim v (FM W C mask) -> fshows v W.
Proof.
  intros S. split; [eapply FSim_mnt; eauto|]. intros c o1 o2 RC.
  destruct c; try discriminate RC; cbn [FseVol.fexec].
  - destruct (N.ltb_spec INT32_MAX len) as [L|L].
    + exists (Err EINVAL), []. split; auto. cbn; auto.
    + destruct (fread_run g OK atom MM TM TD (CoreFileRead g i off len) (FRead i off len) (fun x => FData (fst x) (snd x)) v W C mask (r_CoreFileRead g i off len) eq_refl) as (r & t & R & a' & AS & _); auto.
      { intros C0 D0 F0 s HF. destruct (fread_file g OK i off len C0 D0 F0 s HF) as (r & R & X). eauto. }
      exists r, t. split; auto. inversion AS; subst; auto; discriminate.
  - destruct (fread_run g OK atom MM TM TD (CoreFileSizeGet g i) (FSizeGet i) FNum v W C mask (r_SizeGet g i) eq_refl) as (r & t & R & a' & AS & _); auto.
    { intros C0 D0 F0 s HF. destruct (fsize_get g OK i C0 D0 F0 s HF) as (r & R & X). eauto. }
    exists r, t. split; auto. inversion AS; subst; auto; discriminate.
Qed.
Lemma FCS_mounts d G C : CS good g atom d G -> Z G C -> fmounts d C.
Proof.
  intros H ZG o1 o2.
  assert (HS : FSim (boot TD d) (FU (Some C) TD)) by (exists (Some G); repeat split; auto).
  cbn [FseVol.fexec]. change (v_mnt (boot TD d)) with false. cbn [negb]. unfold fmap_, RedCoreVolMount.
  assert (E0 : N.land (MOUNT_DEFAULT MM) MM = MOUNT_DEFAULT MM). { unfold MOUNT_DEFAULT. now rewrite <- N.land_assoc, N.land_diag. }
  rewrite E0, N.eqb_refl. cbn [negb].
  assert (E1 : negb (N.land (MOUNT_DEFAULT MM) RED_MOUNT_READONLY =? 0) = false).
  { unfold MOUNT_DEFAULT. rewrite <- N.land_assoc, (N.land_comm MM), N.land_assoc. reflexivity. }
  rewrite E1. destruct (mount_ok good g OK atom G (boot TD d) false H) as (v' & R & HV & RO & MK' & _).
  unfold pbind at 1. rewrite R. eexists. split; [reflexivity|]. apply (FSim_shows v' C C (v_mask v')). exists G, G. auto 7.
Qed.
Lemma FSim_durable v W C mask : FSim v (FM W C mask) -> fdurable v C.
Proof.
  intros S d d' MH LO. unfold dirty in MH. rewrite (FSim_mnt _ _ _ _ S) in MH. destruct S as (F & G & HV & ZF & ZG & _).
  apply (FCS_mounts d' G); auto. eapply (CS_lose good g OK); eauto. eapply (back_CS good g OK); eauto.
Qed.
Lemma FU_durable v C mask : FSim v (FU (Some C) mask) -> fdurable v C.
Proof.
  intros (Y & MN & RS & HM & ZY & MK) d d' MH LO. destruct Y as [G|]; [|destruct ZY]. apply (FCS_mounts d' G); auto. apply (CS_lose good g OK atom d d' G); auto. unfold dirty in MH. rewrite MN in MH.
  apply (CS_mayhap good g OK atom (v_d v) d G (fun _ => false)); auto. intros; discriminate.
Qed.
Lemma fsteps_app v t1 v1 t2 v2 : fsteps v t1 v1 -> fsteps v1 t2 v2 -> fsteps v (t1 ++ t2) v2.
Proof using. induction 1; cbn; intros; auto; [eapply FSs_cons|eapply FSs_back]; eauto. Qed.
Lemma freach_steps v t v' : freach v -> fsteps v t v' -> freach v'.
Proof using. intros (t0 & d & U & S) H. exists (t0 ++ t), d. split; auto. eapply fsteps_app; eauto. Qed.
Lemma freach_step v e v' : freach v -> fstep v (Some e) v' -> freach v'.
Proof using. intros R S. eapply freach_steps; eauto. eapply FSs_cons; eauto. apply FSs_nil. Qed.
Lemma frefines t v : fhistory t v -> exists a, fasteps (FU None TD) t a /\ FSim v a.
Proof.
  intros (d & (U1 & U2) & S). destruct (fsteps_sim g OK atom MM TM TD _ _ _ S (FU None TD)) as (a & A & B); [|eauto].
  exists None. repeat split; auto.
Qed.
Lemma freach_sim v : freach v -> exists a, FSim v a.
Proof. intros (t & H). destruct (frefines t v H) as (a & _ & B). eauto. Qed.
Lemma freach_mnt v : freach v -> v_mnt v = true -> exists W C, FSim v (FM W C (v_mask v)).
Proof.
  intros R M. destruct (freach_sim v R) as ([W C mask|X mask] & S).
  - exists W, C. destruct S as (F & G & A & B & D & E & <-). exists F, G. auto.
  - destruct S as (Y & S & _). congruence.
Qed.
(** * What can be seen determines the files *)
Definition feq (W W' : ffs) : Prop := forall i, match W i, W' i with
  | Some (sz, b), Some (sz', b') => sz = sz' /\ forall x, x < sz -> b x = b' x | None, None => True | _, _ => False end.
Lemma shows_feq v W W' : fshows v W -> fshows v W' -> feq W W'.
Proof.
  intros (M & H) (_ & H') i. set (o := (0, fun _ => BJunk) : oracle).
  destruct (H (FSizeGet i) o o eq_refl) as (r & t & R & X). destruct (H' (FSizeGet i) o o eq_refl) as (r' & t' & R' & X').
  rewrite R in R'. injection R' as <- <-. cbn in X, X'. destruct r as [[|n|]|e]; try contradiction.
  - destruct X as (b & E), X' as (b' & E'). rewrite E, E'. split; auto. intros x Hx.
    destruct (H (FRead i x 1) o o eq_refl) as (r & t2 & R2 & Y). destruct (H' (FRead i x 1) o o eq_refl) as (r' & t3 & R3 & Y').
    rewrite R2 in R3. injection R3 as <- <-. cbn in Y, Y'. destruct r as [[| |m f]|e]; try contradiction.
    + destruct Y as (_ & sz & b1 & E1 & -> & Y), Y' as (_ & sz' & b1' & E1' & _ & Y'). rewrite E in E1. rewrite E' in E1'. injection E1 as <- <-. injection E1' as <- <-.
      specialize (Y 0 ltac:(lia)). specialize (Y' 0 ltac:(lia)). rewrite N.add_0_r in Y, Y'. congruence.
    + destruct Y as [[_ Y]|(_ & _ & Y)]; [vm_compute in Y; discriminate|congruence].
  - destruct X as [_ ->], X' as [_ ->]. auto.
Qed.
Lemma fread_feq c W W' r : feq W W' -> fread_ok c W r -> fread_ok c W' r.
Proof.
  intros H. destruct c; cbn; try tauto; specialize (H i); destruct r as [[| |]|e]; try tauto.
  - intros (L & sz & b & E & -> & X). split; auto. rewrite E in H. destruct (W' i) as [[sz' b']|]; [|tauto]. destruct H as [<- H]. exists sz, b'. split; auto. split; auto.
    intros x Hx. rewrite X by auto. apply H. lia.
  - intros [X|(L & -> & E)]; auto. rewrite E in H. right. split; auto. split; auto. destruct (W' i) as [[]|]; [tauto|auto].
  - intros (b & E). rewrite E in H. destruct (W' i) as [[sz' b']|]; [|tauto]. destruct H as [<- H]. eauto.
  - intros (-> & E). rewrite E in H. split; auto. destruct (W' i) as [[]|]; [tauto|auto].
Qed.
Lemma feq_shows v W W' : fshows v W -> feq W W' -> fshows v W'.
Proof. intros (M & H) E. split; auto. intros c o1 o2 RC. destruct (H c o1 o2 RC) as (r & t & R & X). exists r, t. split; auto. eapply fread_feq; eauto. Qed.
Lemma feq_sym W W' : feq W W' -> feq W' W.
Proof using. clear. intros H i. specialize (H i). destruct (W i) as [[]|], (W' i) as [[]|]; auto. destruct H as [-> H]. split; auto. intros. symmetry. auto. Qed.
Lemma feq_durable v W W' : fdurable v W -> feq W W' -> fdurable v W'.
Proof. intros H E d d' MH LO o1 o2. destruct (H d d' MH LO o1 o2) as (v' & R & S). exists v'. split; auto. eapply feq_shows; eauto. Qed.

(** The bytes beyond the end of a file count as zero. *)
Definition fclean (W : ffs) : Prop := forall i sz b, W i = Some (sz, b) -> sz <= MX /\ forall x, sz <= x -> b x = 0.
Lemma FSim_clean v W C mask : FSim v (FM W C mask) -> fclean W.
Proof.
  intros (F & G & (C0 & D0 & X) & ZF & _) i sz b E. rewrite <- ZF in E. unfold ffs_of in E. destruct (F i) as [[nl sz' b'|]|] eqn:Fi; try discriminate. injection E as -> ->.
  destruct (x_w _ _ _ _ _ _ _ _ X) as (V & (pm & K & VE & _) & HR).
  destruct (REP_file g OK V F i nl sz b HR Fi) as (a & Va & _ & _ & SZ & BY). specialize (VE i). rewrite Va in VE. unfold absV in VE.
  destruct (FsInv.T g (set_ro false (v_s v)) i) as [io|] eqn:TI; cbn in VE; [|tauto]. destruct VE as (E1 & _ & _ & _ & E2). cbn [a_size a_byte absI] in *.
  destruct (k_fit K i io TI (T_ne _ _ _ _ TI)) as [LI _]. split; [destruct LI as [_ L1 L2]; lia|].
  intros x Hx. rewrite <- BY, <- E2. unfold vb. destruct (N.ltb_spec x (i_size io)); auto. lia.
Qed.
(** Pointwise equality of the files. *)
Definition fex (W W' : ffs) : Prop := forall i, match W i, W' i with
  | Some (sz, b), Some (sz', b') => sz = sz' /\ forall x, b x = b' x | None, None => True | _, _ => False end.
Lemma clean_fex W W' : feq W W' -> fclean W -> fclean W' -> fex W W'.
Proof using.
  clear. intros H C C' i. specialize (H i). destruct (W i) as [[sz b]|] eqn:E, (W' i) as [[sz' b']|] eqn:E'; auto. destruct H as [<- H]. split; auto.
  intros x. destruct (N.ltb_spec x sz); auto. rewrite (proj2 (C _ _ _ E)), (proj2 (C' _ _ _ E')); auto.
Qed.
Lemma fex_feq W W' : fex W W' -> feq W W'.
Proof using. clear. intros H i. specialize (H i). destruct (W i) as [[]|], (W' i) as [[]|]; auto. destruct H; auto. Qed.
Lemma fex_refl W : fex W W. Proof using. clear. intros i. destruct (W i) as [[]|]; auto. Qed.
Lemma fex_trans A B D : fex A B -> fex B D -> fex A D.
Proof using. clear. intros H K i. specialize (H i). specialize (K i). destruct (A i) as [[]|], (B i) as [[]|], (D i) as [[]|]; auto; try contradiction. destruct H, K. split; [congruence|]. intros. now rewrite H0. Qed.
Lemma fex_sym A B : fex A B -> fex B A.
Proof using. clear. intros H i. specialize (H i). destruct (A i) as [[]|], (B i) as [[]|]; auto. destruct H; auto. Qed.
Lemma fapply_fex W W' e : fex W W' -> fex (fapply W e) (fapply W' e).
Proof using.
  clear. intros H. unfold fapply. destruct e as [[] [[]|]|]; auto; intros j; pose proof (H i) as Hi; pose proof (H j) as Hj; cbn.
  - destruct ((j =? i) && (0 <? n)); auto. destruct (W i) as [[]|], (W' i) as [[]|]; auto. destruct Hi as [-> Hi]. split; auto. intros x. now rewrite Hi.
  - destruct (j =? i); auto. destruct (W i) as [[]|], (W' i) as [[]|]; auto. destruct Hi as [-> Hi]. split; auto. intros x. now rewrite Hi.
Qed.
Lemma fold_fex t : forall W W', fex W W' -> fex (fold_left fapply t W) (fold_left fapply t W').
Proof using. clear. induction t as [|e t IH]; cbn; intros; auto. apply IH. now apply fapply_fex. Qed.
(** A call's effect is determined by its result. *)
Lemma fmod_apply c r W W' : fmod_ok MX c r W W' -> fex W' (fapply W (FECall c (Ok r))).
Proof using.
  clear. destruct c; cbn; try contradiction.
  - intros (n & -> & _ & sz & b & E & X) j. rewrite E. destruct (N.eqb_spec len 0) as [->|NL].
    + destruct X as (-> & _ & X). rewrite andb_false_r. rewrite (X j). destruct (W j) as [[]|]; auto.
    + destruct X as ([P _] & X1 & X2). destruct (N.ltb_spec 0 n); [|lia]. destruct (N.eqb_spec j i) as [->|NE]; cbn [andb].
      * rewrite X1. auto.
      * rewrite X2 by auto. destruct (W j) as [[]|]; auto.
  - intros (-> & _ & sz & b & E & X1 & X2) j. rewrite E. destruct (N.eqb_spec j i) as [->|NE].
    + rewrite X1. auto.
    + rewrite X2 by auto. destruct (W j) as [[]|]; auto.
Qed.
Lemma fapply_other W c r : fmodifies c = false -> fapply W (FECall c r) = W.
Proof using. clear. destruct c; try discriminate; auto. Qed.

(** * The specification machine *)
Lemma mach_quiet a t a' : fasteps a t a' -> forall W C m, a = FM W C m -> fquiet TM m t -> exists W' m', a' = FM W' C m'.
Proof using.
  clear. induction 1 as [a|a e a1 t a2 S1 _ IH]; intros W C m -> Q; [eauto|].
  destruct e as [c r|]; [|destruct Q]. inversion S1; subst; try (cbn in Q; contradiction); try (eapply IH; [reflexivity|exact Q]).
  - assert (E : has m (fevbit c) = false /\ C1 = C /\ fquiet TM m t).
    { match goal with H : fretry _ _ _ _ |- _ => rename H into RT end. destruct c; try discriminate; destruct Q as (Q1 & Q2 & Q3); (split; [auto|split; [|auto]]); destruct RT as [->|[RT _]]; auto; congruence. }
    destruct E as (E & -> & Q'). rewrite E in *. eapply IH; [reflexivity|exact Q'].
  - assert (E : C1 = C /\ fquiet TM m t).
    { match goal with H : fretry _ _ _ _ |- _ => rename H into RT end. destruct c; try discriminate; destruct Q as (Q1 & Q2 & Q3); (split; [|auto]); destruct RT as [->|[RT _]]; auto; congruence. }
    destruct E as (-> & Q'). eapply IH; [reflexivity|exact Q'].
  - assert (E : fquiet TM m t) by (destruct c; try discriminate; exact Q). eapply IH; [reflexivity|exact E].
  - cbn in Q. match goal with H : N.land _ _ = _ |- _ => rewrite H, N.eqb_refl in Q end. eapply IH; [reflexivity|exact Q].
  - cbn in Q. destruct (N.eqb_spec (N.land m0 TM) m0); [congruence|]. eapply IH; [reflexivity|exact Q].
Qed.
Lemma mach_forward a t a' : fasteps a t a' -> forall W C m, a = FM W C m -> Forall fforward t -> exists W' C' m', a' = FM W' C' m' /\ fex W' (fold_left fapply t W).
Proof using.
  clear. induction 1 as [a|a e a1 t a2 S1 _ IH]; intros W C m -> Q. { exists W, C, m. split; auto. apply fex_refl. }
  inversion Q as [|? ? Q1 Q2]; subst. destruct e as [c r|]; [|destruct Q1].
  assert (SAME : forall C1 m1, a1 = FM W C1 m1 -> fapply W (FECall c r) = W -> exists W' C' m', a2 = FM W' C' m' /\ fex W' (fold_left fapply (FECall c r :: t) W)).
  { intros C1 m1 E EA. cbn [fold_left]. rewrite EA. eapply IH; eauto. }
  inversion S1; subst; try (cbn in Q1; contradiction); try (eapply SAME; [reflexivity|]; auto; fail).
  - match goal with H : fmod_ok _ _ _ _ _ |- _ => rename H into MO end. destruct (IH _ _ _ eq_refl Q2) as (W2 & C2 & m2 & -> & E). exists W2, C2, m2. split; auto.
    cbn [fold_left]. eapply fex_trans; [exact E|]. apply fold_fex. now apply fmod_apply.
  - eapply SAME; [reflexivity|]. destruct c; auto.
  - eapply SAME; [reflexivity|]. apply fapply_other. destruct c; try discriminate; auto.
Qed.
Lemma fmod_err_feq c W W' e : feq W W' -> fmod_err MX c W e -> fmod_err MX c W' e.
Proof using.
  clear. intros H. assert (N : forall i, W i = None -> W' i = None). { intros i E. specialize (H i). rewrite E in H. destruct (W' i); [tauto|auto]. }
  destruct c; cbn; try tauto; intros X.
  - destruct X as [X|(L & X)]; auto. right. split; auto. destruct X as [X|[[A B]|X]]; auto.
  - destruct X as [X|[[A B]|X]]; auto.
Qed.

(** * C42 *)
(** The volume [v] is in state [a] of the specification, as far as calls can tell. *)
Definition fobserve (v : vol) (a : fast) : Prop :=
  match a with
  | FM W C mask => fshows v W /\ fclean W /\ fdurable v C /\ (forall o1 o2, fexec FMaskGet o1 o2 v = (Ok (FNum mask), v, []))
  | FU X mask => (forall o1 o2 i, fexec (FSizeGet i) o1 o2 v = (Err EINVAL, v, [])) /\
      match X with
      | Some C => fdurable v C /\ (forall o1 o2, exists v', fexec FMount o1 o2 v = (Ok FUnit, v', []) /\ fshows v' C)
      | None => forall o1 o2, fexec FMount o1 o2 v = (Err EIO, v, [])
      end
  end.
Lemma FSim_observe v a : FSim v a -> fobserve v a.
Proof.
  intros S. destruct a as [W C mask|X mask].
  - split; [eapply FSim_shows; eauto|]. split; [eapply FSim_clean; eauto|]. split; [eapply FSim_durable; eauto|].
    intros o1 o2. pose proof (FSim_mnt _ _ _ _ S) as MN. destruct S as (F & G & _ & _ & _ & _ & MK). cbn. unfold fmap_, pbind, RedCoreTransMaskGet, pret. rewrite MN, MK. reflexivity.
  - pose proof S as (Y & MN & RS & HM & ZY & MK). split.
    { intros o1 o2 i. cbn. unfold fmap_, pbind, mounted. rewrite MN. reflexivity. }
    destruct X as [C|].
    + split; [eapply FU_durable; eauto|]. intros o1 o2. destruct Y as [G|]; [|destruct ZY].
      assert (RM : forall o1 o2, fexec FMount o1 o2 v = fexec FMount (0, snd o1) (0, snd o2) v) by reflexivity.
      cbn [FseVol.fexec]. rewrite MN. cbn [negb]. unfold fmap_, RedCoreVolMount.
      assert (E0 : N.land (MOUNT_DEFAULT MM) MM = MOUNT_DEFAULT MM). { unfold MOUNT_DEFAULT. now rewrite <- N.land_assoc, N.land_diag. }
      rewrite E0, N.eqb_refl. cbn [negb].
      assert (E1 : negb (N.land (MOUNT_DEFAULT MM) RED_MOUNT_READONLY =? 0) = false).
      { unfold MOUNT_DEFAULT. rewrite <- N.land_assoc, (N.land_comm MM), N.land_assoc. reflexivity. }
      rewrite E1. destruct (mount_ok good g OK atom G v false HM) as (v' & R & HV & RO & MK' & _).
      unfold pbind at 1. rewrite R. eexists. split; [reflexivity|]. apply (FSim_shows v' C C (v_mask v')). exists G, G. auto 7.
    + destruct Y as [G|]; [destruct ZY|]. destruct HM as [H1 H2]. intros o1 o2. cbn [FseVol.fexec]. rewrite MN. cbn [negb]. unfold fmap_, RedCoreVolMount.
      assert (E0 : N.land (MOUNT_DEFAULT MM) MM = MOUNT_DEFAULT MM). { unfold MOUNT_DEFAULT. now rewrite <- N.land_assoc, N.land_diag. }
      rewrite E0, N.eqb_refl. cbn [negb]. unfold pbind, RedVolMountMaster. rewrite H1. reflexivity.
Qed.
(** Every history of calls and power losses, in and between calls, is one of the specification machine of FseSpec.v. *)
Theorem C42_refines t v : fhistory t v -> exists a, fasteps (FU None TD) t a /\ fobserve v a.
Proof. intros H. destruct (frefines t v H) as (a & A & S). exists a. split; auto. now apply FSim_observe. Qed.

(** After a transaction point (explicit, automatic or the mount) and any calls that make none, a power loss brings
    back exactly the files at the transaction point, and so does a rollback, which writes nothing. *)
Theorem C42_power_loss v0 c r v1 W : freach v0 -> fstep v0 (Some (FECall c (Ok r))) v1 -> fcommits v0 c -> fshows v1 W ->
  forall t v2, fsteps v1 t v2 -> fquiet TM (v_mask v1) t ->
    fdurable v2 W /\
    forall o1 o2, exists v3, fexec FRollback o1 o2 v2 = (Ok FUnit, v3, []) /\ fshows v3 W /\ v_d v3 = v_d v2.
Proof.
  intros R S CC SW t v2 ST Q. destruct (freach_sim v0 R) as (a & SA). destruct (fstep_sim g OK atom MM TM TD _ _ _ _ SA S) as (a' & AS & SA').
  assert (G : exists C m, a' = FM C C m).
  { destruct CC as [->|[[-> MN]|[MC HB]]].
    - inversion AS; subst; try discriminate; eauto.
    - inversion AS; subst; try discriminate; eauto. pose proof (FSim_mnt _ _ _ _ SA). congruence.
    - inversion AS; subst; try discriminate.
      + destruct SA as (F & G & _ & _ & _ & _ & MK). rewrite <- MK, HB. eauto.
      + destruct c; discriminate. }
  destruct G as (C & m & ->). assert (FE : feq C W) by (apply (shows_feq v1); auto; eapply FSim_shows; eauto).
  assert (EM : v_mask v1 = m) by (destruct SA' as (F & G & _ & _ & _ & _ & MK); auto). rewrite EM in Q.
  destruct (fsteps_sim g OK atom MM TM TD _ _ _ ST _ SA') as (a2 & AS2 & SA2). destruct (mach_quiet _ _ _ AS2 _ _ _ eq_refl Q) as (W' & m' & ->).
  split; [eapply feq_durable; eauto; eapply FSim_durable; eauto|]. intros o1 o2. pose proof (FSim_mnt _ _ _ _ SA2) as MN.
  destruct SA2 as (F & G & HV & ZF & ZG & RO & MK). destruct (rollback_ok good g OK atom v2 F G HV RO) as (v3 & RB & HV3 & RO3 & MK3 & DV).
  exists v3. split; [|split; auto].
  - cbn [FseVol.fexec]. unfold fmap_, RedCoreVolRollback, pbind at 1, guard. rewrite MN, RO. cbn [negb]. rewrite RB. reflexivity.
  - eapply feq_shows; [|exact FE]. apply (FSim_shows v3 C C m'). exists G, G. repeat split; auto; congruence.
Qed.
(** Power loss during a call: the files last committed before the call, or what the call commits, or, if the call ran
    out of space and was retried after a transaction, the files before it. *)
Theorem C42_power_loss_during_call v c o1 o2 r v' t : freach v -> v_mnt v = true -> room v o1 o2 ->
  fexec c o1 o2 v = (r, v', t) ->
  exists W C, fshows v W /\ fdurable v C /\
    forall sn d d', In sn t -> sn d -> lose atom d d' ->
      fmounts d' C \/
      (exists C', fdurable v' C' /\ fmounts d' C') \/
      fmodifies c = true /\ has (v_mask v) T_VOLFULL = true /\ fmounts d' W.
Proof.
  intros R MN RM EX. destruct (freach_mnt v R MN) as (W & C & SA). exists W, C.
  split; [eapply FSim_shows; eauto|]. split; [eapply FSim_durable; eauto|]. intros sn d d' IN HD LO.
  destruct (fmounted_run g OK atom MM TM TD c o1 o2 v W C _ RM SA) as (r0 & v0 & t0 & EX' & X). rewrite EX in EX'. injection EX' as <- <- <-.
  destruct X as (a' & AS & SA' & HT).
  unfold FsFormat.TRo in HT. rewrite Forall_forall in HT. destruct (HT sn IN d HD d' LO) as (Y & (X & ZX & _ & CT) & HM).
  assert (MT : forall C1, X = Some C1 -> fmounts d' C1). { intros C1 ->. destruct Y as [G|]; [|destruct ZX]. eapply FCS_mounts; eauto. }
  unfold fcrash_to in CT. cbn [facom] in CT. destruct CT as [->|[->|[(E1 & E2 & ->)|(-> & ->)]]].
  - left. auto.
  - right. left. destruct a' as [W' C' mask'|[C'|] mask']; cbn [facom] in *.
    + exists C'. split; [eapply FSim_durable; eauto|auto].
    + exists C'. split; [eapply FU_durable; eauto|auto].
    + inversion AS.
  - right. right. split; auto.
  - exfalso. cbn [FseVol.fexec] in EX. unfold fmap_, pbind, RedVolFormatWith in EX. rewrite MN in EX. injection EX as <- <- <-. destruct IN.
Qed.

(** * C43 *)
(** The files of a mounted volume: numbers 2, ..., icnt + 1. *)
Theorem C43_files v : freach v -> v_mnt v = true -> exists W, fshows v W /\ fclean W /\ forall i, W i <> None <-> 2 <= i < 2 + ICNT g.
Proof.
  intros R MN. destruct (freach_mnt v R MN) as (W & C & SA). exists W. split; [eapply FSim_shows; eauto|]. split; [eapply FSim_clean; eauto|].
  intros i. destruct SA as (F & G & (C0 & D0 & X) & ZF & _). rewrite <- ZF. pose proof (x_WF _ _ _ _ _ _ _ _ X i) as GF. unfold ffs_of.
  unfold INODE_IS_VALID in GF. change INODE_FIRST_VALID with 2 in GF.
  destruct (N.leb_spec 2 i), (N.ltb_spec i (2 + ICNT g)); cbn [andb] in GF; try (rewrite GF; split; [congruence|lia]).
  destruct GF as (nl & sz & b & ->). split; [auto|congruence].
Qed.
(** After a format and a mount all files are empty. *)
Theorem C43_format v v1 v2 : freach v -> fstep v (Some (FECall FFormat (Ok FUnit))) v1 -> fstep v1 (Some (FECall FMount (Ok FUnit))) v2 ->
  fshows v2 (Fnew (ICNT g)) /\ fdurable v2 (Fnew (ICNT g)).
Proof.
  intros R S1 S2. destruct (freach_sim v R) as (a & SA). destruct (fstep_sim g OK atom MM TM TD _ _ _ _ SA S1) as (a1 & AS1 & SA1).
  destruct (fstep_sim g OK atom MM TM TD _ _ _ _ SA1 S2) as (a2 & AS2 & SA2). inversion AS1; subst; try discriminate. inversion AS2; subst; try discriminate.
  split; [eapply FSim_shows|eapply FSim_durable]; eauto.
Qed.
(** One modifying call: the files change as specified and nothing else does; a failed call has a stated reason and
    changes nothing. *)
Theorem C43_call v c r v' W : freach v -> fstep v (Some (FECall c r)) v' -> fmodifies c = true -> fshows v W -> fclean W ->
  match r with
  | Ok x => (exists W', fmod_ok MX c x W W') /\ fshows v' (fapply W (FECall c (Ok x)))
  | Err e => fmod_err MX c W e /\ fshows v' W
  end.
Proof.
  intros R S MC SW CW. destruct (freach_mnt v R (proj1 SW)) as (W0 & C & SA). destruct (fstep_sim g OK atom MM TM TD _ _ _ _ SA S) as (a' & AS & SA').
  assert (FQ : feq W0 W) by (apply (shows_feq v); auto; eapply FSim_shows; eauto).
  assert (FX : fex W0 W) by (apply clean_fex; auto; eapply FSim_clean; eauto).
  inversion AS; subst; try discriminate.
  - match goal with H : fmod_ok _ _ _ _ _ |- _ => rename H into MO end. split.
    + destruct c; try discriminate; cbn in MO |- *.
      * destruct MO as (n & -> & L & sz & b & E & X). pose proof (FX i) as FI. rewrite E in FI. destruct (W i) as [[sz' b']|] eqn:E'; [|contradiction].
        destruct (N.eqb_spec len 0).
        -- exists W, n. split; auto. split; auto. exists sz', b'. split; auto. destruct X as (A & B & _). split; auto. split; auto. intros j. auto.
        -- exists (fun j => if j =? i then Some (N.max sz' (off + n), fun x => if (off <=? x) && (x <? off + n) then src (x - off) else b' x) else W j), n. split; auto. split; auto. exists sz', b'. split; auto. split; [apply X|].
           split; [now rewrite N.eqb_refl|]. intros j NE. destruct (N.eqb_spec j i); [contradiction|auto].
      * destruct MO as (-> & L & sz & b & E & X). pose proof (FX i) as FI. rewrite E in FI. destruct (W i) as [[sz' b']|] eqn:E'; [|contradiction].
        exists (fun j => if j =? i then Some (size, fun x => if x <? size then b' x else 0) else W j). split; auto. split; auto. exists sz', b'. split; auto.
        split; [now rewrite N.eqb_refl|]. intros j NE. destruct (N.eqb_spec j i); [contradiction|auto].
    + eapply feq_shows; [eapply FSim_shows; eauto|]. apply fex_feq. eapply fex_trans; [apply fmod_apply; eauto|]. now apply fapply_fex.
  - split; [eapply fmod_err_feq; eauto|]. eapply feq_shows; [eapply FSim_shows; eauto|auto].
  - destruct c; discriminate.
Qed.
(** Any history without power loss, unmount and rollback: the files are what the results of the calls say. *)
Theorem C43_history v t v' W : freach v -> fshows v W -> fclean W -> fsteps v t v' -> Forall fforward t -> fshows v' (fold_left fapply t W).
Proof.
  intros R SW CW ST QT. destruct (freach_mnt v R (proj1 SW)) as (W0 & C & SA). destruct (fsteps_sim g OK atom MM TM TD _ _ _ ST _ SA) as (a' & AS & SA').
  assert (FX : fex W0 W) by (apply clean_fex; [apply (shows_feq v); auto; eapply FSim_shows; eauto|eapply FSim_clean; eauto|auto]).
  destruct (mach_forward _ _ _ AS _ _ _ eq_refl QT) as (W' & C' & m' & -> & E).
  eapply feq_shows; [eapply FSim_shows; eauto|]. apply fex_feq. eapply fex_trans; [exact E|]. now apply fold_fex.
Qed.
(** The errors a call on a mounted volume can return: neither an I/O error nor a read-only volume among them. *)
Theorem C43_errors v c e v' : freach v -> v_mnt v = true -> fstep v (Some (FECall c (Err e))) v' -> e = EINVAL \/ e = EBADF \/ e = EFBIG \/ e = ENOSPC \/ e = EBUSY.
Proof.
  intros R MN S. destruct (freach_mnt v R MN) as (W & C & SA). destruct (fstep_sim g OK atom MM TM TD _ _ _ _ SA S) as (a' & AS & _).
  inversion AS; subst; auto 7.
  - match goal with H : fmod_err _ _ _ _ |- _ => destruct c; cbn in H; try contradiction; intuition auto end.
  - match goal with H : fread_ok _ _ _ |- _ => destruct c; cbn in H; try contradiction; intuition auto end.
Qed.
(** Nothing but mounting changes whether the volume is mounted. *)
Theorem C43_mounted v c r v' : freach v -> fstep v (Some (FECall c r)) v' ->
  v_mnt v' = match c, r with FMount, Ok _ => true | FUnmount, _ => false | _, _ => v_mnt v end.
Proof.
  intros R S. destruct (freach_sim v R) as (a & SA). destruct (fstep_sim g OK atom MM TM TD _ _ _ _ SA S) as (a' & AS & SA').
  assert (M1 : v_mnt v = match a with FM _ _ _ => true | _ => false end). { destruct a; [eapply FSim_mnt; eauto|destruct SA as (? & ? & _); auto]. }
  assert (M2 : v_mnt v' = match a' with FM _ _ _ => true | _ => false end). { destruct a'; [eapply FSim_mnt; eauto|destruct SA' as (? & ? & _); auto]. }
  rewrite M1, M2. inversion AS; subst; auto; destruct c; try discriminate; auto.
Qed.

(** After a transaction point a file can be shrunk, however full the volume is.  Configuration: the reserve covers the
    worst case cost of a branch (redcoremacs.h:77-101). *)
Lemma ftransact_clean o v v' t F G : RedVolTransact o v = (Ok tt, v', t) -> VI good g atom v' F G -> s_w (v_s v') = s_c (v_s v').
Proof.
  unfold RedVolTransact. destruct (s_br (v_s v)) eqn:B; cbn [negb].
  - destruct (UINT64_MAX <=? v_seq v + fst o); intros E; [discriminate|]. injection E as <- <-; auto.
  - intros E (C0 & D0 & X). injection E as <- <-. destruct (FSV_Idle g OK _ _ _ _ (x_w _ _ _ _ _ _ _ _ X)) as [pm K]. destruct (k_br K B) as (Y & _). exact Y.
Qed.
Lemma fautocommit_clean {A} ev (m : M st A) o1 o2 v a v' t F G : autocommit ev m o1 o2 v = (Ok a, v', t) -> has (v_mask v) ev = true -> VI good g atom v' F G ->
  s_w (v_s v') = s_c (v_s v').
Proof.
  intros EX HE HV. unfold autocommit, guard in EX. destruct (v_mnt v); cbn [negb] in EX; [|discriminate]. destruct (s_ro (v_s v)); [discriminate|].
  unfold pbind at 1 in EX.
  assert (M1 : forall r v1 t1, pcatch (core m) (fun r v2 => match r with Ok a0 => pret a0 v2 | Err ENOSPC => if has (v_mask v2) T_VOLFULL && (0 <? s_afree (v_s v2)) then (RedVolTransact o1 ~;; core m)%pv v2 else pfail ENOSPC v2 | Err e => pfail e v2 end) v = (r, v1, t1) -> v_mask v1 = v_mask v).
  { intros r v1 t1. unfold pcatch. destruct (core m v) as [[r2 v2] t2] eqn:R2. pose proof (core_mask _ _ _ _ _ R2) as M2.
    destruct r2 as [x|[]]; try (intros E; injection E as <- <- <-; auto; fail).
    destruct (has (v_mask v2) T_VOLFULL && (0 <? s_afree (v_s v2))); [|intros E; injection E as <- <- <-; auto].
    unfold pbind. destruct (RedVolTransact o1 v2) as [[r3 v3] t3] eqn:R3. pose proof (transact_mask _ _ _ _ _ R3). destruct r3; [|intros E; injection E as <- <- <-; congruence].
    destruct (core m v3) as [[r4 v4] t4] eqn:R4. pose proof (core_mask _ _ _ _ _ R4). intros E; injection E as <- <- <-; congruence. }
  match goal with M1 : forall r v1 t1, ?P v = _ -> _ |- _ => destruct (P v) as [[r v1] t1] eqn:R1 end.
  specialize (M1 _ _ _ eq_refl).
  assert (EX' : match r with Ok a0 => let '(r2, v2, t2) := (if has (v_mask v1) ev then (RedVolTransact o2 ~;; pret a0)%pv v1 else pret a0 v1) in (r2, v2, t1 ++ t2) | Err e => (Err e, v1, t1) end = (Ok a, v', t)) by exact EX.
  destruct r as [x|]; [|discriminate]. rewrite M1, HE in EX'. unfold pbind in EX'. destruct (RedVolTransact o2 v1) as [[[[]|] v3] t3] eqn:R3; [|discriminate].
  injection EX' as <- <- <-. eapply ftransact_clean; eauto.
Qed.
Lemma fcommit_clean v0 c r v1 F G : fstep v0 (Some (FECall c (Ok r))) v1 -> fcommits v0 c -> VI good g atom v1 F G -> s_w (v_s v1) = s_c (v_s v1).
Proof.
  intros S CC HV. inversion S; subst. match goal with H : fexec _ _ _ _ = _ |- _ => rename H into EX end. destruct CC as [->|[(-> & MN)|(MC & HE)]]; cbn [FseVol.fexec] in EX.
  - unfold fmap_, RedCoreVolTransact, pbind, guard, pret in EX. destruct (negb (v_mnt v0)); [discriminate|]. destruct (s_ro (v_s v0)); [discriminate|].
    destruct (RedVolTransact o1 v0) as [[[[]|] v3] t3] eqn:R3; [|discriminate]. injection EX as <- <- <-. eapply ftransact_clean; eauto.
  - rewrite MN in EX. cbn [negb] in EX. unfold fmap_, RedCoreVolMount, pbind, pret in EX. destruct (negb (N.land _ MM =? _)); [discriminate|].
    unfold RedVolMountMaster in EX. destruct (d_mst (v_d v0)); [|discriminate]. unfold RedVolMountMetaroot in EX.
    destruct (choose atom (d_mr (v_d (vset_seq n v0)))) as [[[i q] m]|]; [|discriminate].
    destruct ((if v_seq (vset_seq n v0) <? q then q else v_seq (vset_seq n v0)) =? UINT64_MAX); [discriminate|]. injection EX as <- <- <-. reflexivity.
  - assert (Y : exists A (m : M st A) f, fmap_ f (autocommit (fevbit c) m o1 o2) v0 = (Ok r, v1, t)).
    { destruct c; try discriminate; cbn [FseVol.fexec] in EX; [destruct (INT32_MAX <? len); [discriminate|]|]; eexists; eexists; eexists; exact EX. }
    destruct Y as (A & m & f & EQ). unfold fmap_, pbind, pret in EQ.
    destruct (autocommit (fevbit c) m o1 o2 v0) as [[[a|] v3] t3] eqn:R3; [|discriminate]. injection EQ as <- <- <-. eapply fautocommit_clean; eauto.
Qed.
Theorem C43_shrink v0 c r0 v i sz b size r v' W : MAXCOST g <= RESV g <= NALLOC g ->
  freach v0 -> fstep v0 (Some (FECall c (Ok r0))) v -> fcommits v0 c ->
  fshows v W -> W i = Some (sz, b) -> size < sz -> fstep v (Some (FECall (FTruncate i size) r)) v' -> r = Ok FUnit.
Proof.
  intros HR R0 S0 CC SW Wi LS S. assert (R : freach v) by (eapply freach_step; eauto).
  destruct (freach_mnt v R (proj1 SW)) as (W0 & C & SA). pose proof (FSim_clean _ _ _ _ SA) as CL. pose proof (shows_feq _ _ _ (FSim_shows _ _ _ _ SA) SW i) as FQ. rewrite Wi in FQ.
  destruct (W0 i) as [[sz' b']|] eqn:W0i; [|contradiction]. destruct FQ as [-> _]. destruct (CL _ _ _ W0i) as [SZM _].
  pose proof SA as (F & G & HV & ZF & ZG & RO & MK). pose proof (fcommit_clean _ _ _ _ _ _ S0 CC HV) as EC.
  assert (NS : r <> Err ENOSPC).
  { destruct HV as (C0 & D0 & X). pose proof (x_w _ _ _ _ _ _ _ _ X) as FW. rewrite (set_ro_id false _ RO) in FW.
    assert (AF : s_afree (v_s v) = 0).
    { destruct (FSV_Idle g OK _ _ _ _ FW) as [pm K]. destruct (k_imap K) as [_ IA _]. rewrite IA.
      apply count_0. intros x _. unfold afree_blk, cur, com. rewrite EC. destruct (m_bits (s_c (v_s v)) x); auto. }
    pose proof (FSV_free g OK atom MM TM TD _ _ _ _ FW) as FR.
    destruct (core_truncate g OK C0 D0 F (v_s v) i size FW ltac:(lia)) as (r1 & s1 & R1 & E1).
    inversion S; subst. match goal with H : fexec _ _ _ _ = _ |- _ => rename H into EX end. cbn [FseVol.fexec] in EX. unfold fmap_, RedCoreFileTruncate, pbind at 1 in EX.
    match type of EX with context[autocommit ?ev ?m ?a ?b v] => destruct (autocommit ev m a b v) as [[[xa|xe] v2] t2] eqn:AC; [injection EX as <- <- <-; discriminate|]; injection EX as <- <- <- end.
    assert (FI : fst (CoreFileTruncate g i size (v_s v)) <> Err ENOSPC).
    { rewrite R1. cbn [fst]. destruct r1 as [[]|e1]; [discriminate|]. intros Y. injection Y as ->. destruct E1 as (_ & [[(? & _)|(? & _)]|(_ & _ & nl1 & sz1 & b1 & Wi1 & LT)]); try discriminate.
      rewrite <- ZF in W0i. unfold ffs_of in W0i. rewrite Wi1 in W0i. injection W0i as -> ->.
      assert (MX1 : 1 <= MAXCOST g) by (unfold MAXCOST; destruct (0 <? DINDIR_POINTERS g), (NDIR g <? IE g); lia).
      replace (size <? sz) with true in LT by (symmetry; apply N.ltb_lt; lia). replace (0 <? RESV g) with true in LT by (symmetry; apply N.ltb_lt; lia). cbn [andb] in LT. lia. }
    intros Y. injection Y as ->. revert AC. intros AC. exact (autocommit_first _ _ _ _ _ _ _ _ AC FI eq_refl). }
  destruct (fstep_sim g OK atom MM TM TD _ _ _ _ SA S) as (a' & AS & _). inversion AS; subst; try discriminate.
  - match goal with H : fmod_ok _ _ _ _ _ |- _ => destruct H as (-> & _) end. reflexivity.
  - match goal with H : fmod_err _ _ _ _ |- _ => cbn in H; destruct H as [->|[[-> H]|[-> H]]] end; [congruence|congruence|lia].
Qed.
End P.
