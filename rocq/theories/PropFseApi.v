(** Several volumes, initialisation: C44. *)
From Verif Require Import Base Count FsState FsMach FsInv FsVolume FsVolumeG FsFormat FsReach PropFs FseSpec FseVol FseReach PropFse FseApi.
Ltac Zify.zify_post_hook ::= idtac.

(** What a system history means for volume [n]: the calls on it, power losses, and initialisation, which for the
    volume is like a power cycle.  [init]: whether the API is initialised before the history. *)
Fixpoint ymine (NVOL n : N) (init : bool) (t : list yevent) : list fevent :=
  match t with
  | [] => []
  | YECall YInit _ :: t => if init then ymine NVOL n true t else FECrash None :: ymine NVOL n true t
  | YECall YUninit r :: t => ymine NVOL n (match r with Ok _ => false | Err _ => init end) t
  | YECall (YCall m c) r :: t => if init && (m =? n) && negb (toolong c) then FECall c r :: ymine NVOL n init t else ymine NVOL n init t
  | YECrash (Some (YCall m c)) :: t => FECrash (if m =? n then Some c else None) :: ymine NVOL n false t
  | YECrash _ :: t => FECrash None :: ymine NVOL n false t
  end.

Section P.
Variable NVOL : N.
Variable gs : N -> cfg.
Variable atom : bool.
Variable MM TM TD : N.
Notation ystep := (ystep NVOL gs atom MM TM TD).
Notation ysteps := (ysteps NVOL gs atom MM TM TD).
Notation FseCall := (FseCall NVOL gs atom MM TM).
Notation fstep n := (fstep (gs n) atom MM TM TD).
Notation fsteps n := (fsteps (gs n) atom MM TM TD).

Lemma boot_mnt d : v_mnt (boot TD d) = false. Proof. reflexivity. Qed.
Lemma any_iff k y : any_mounted k y = true <-> exists n, n < N.of_nat k /\ v_mnt (fy_vol y n) = true.
Proof.
  induction k as [|k IH]; cbn [any_mounted].
  - split; [discriminate|]. intros (n & H & _). lia.
  - rewrite orb_true_iff, IH. split.
    + intros [(n & H & M)|M]; [exists n; split; [lia|auto]|exists (N.of_nat k); split; [lia|auto]].
    + intros (n & H & M). destruct (N.eq_dec n (N.of_nat k)) as [->|]; auto. left. exists n. split; [lia|auto].
Qed.
(** One step of the system is a step of volume [n] or none. *)
Lemma ymine_step n y e y' t : n < NVOL -> (fy_init y = false -> v_mnt (fy_vol y n) = false) -> ystep y e y' ->
  (fy_init y' = false -> v_mnt (fy_vol y' n) = false) /\
  exists s, fsteps n (fy_vol y n) s (fy_vol y' n) /\
    match e with Some e => ymine NVOL n (fy_init y) (e :: t) = s ++ ymine NVOL n (fy_init y') t | None => s = [] /\ fy_init y' = fy_init y end.
Proof.
  intros LN IV S. inversion S; subst; clear S.
  - match goal with H : RedFseInit _ _ = _ |- _ => rename H into E end. unfold RedFseInit in E. cbn [ymine]. destruct (fy_init y) eqn:IN; injection E as <- <-.
    + rewrite IN. split; [congruence|]. exists []. split; [constructor|reflexivity].
    + cbn [fy_init fy_vol]. split; [discriminate|]. exists [FECrash None]. split; [|reflexivity]. eapply FSs_cons; [apply FS_init; auto|constructor].
  - match goal with H : RedFseUninit _ _ = _ |- _ => rename H into E end. unfold RedFseUninit in E. cbn [ymine]. destruct (fy_init y) eqn:IN; cbn [negb] in E.
    + destruct (any_mounted (N.to_nat NVOL) y) eqn:AM; injection E as <- <-.
      * rewrite IN. split; [congruence|]. exists []. split; [constructor|reflexivity].
      * cbn [fy_init fy_vol]. split; [|exists []; split; [constructor|reflexivity]]. intros _. destruct (v_mnt (fy_vol y n)) eqn:M; auto.
        enough (any_mounted (N.to_nat NVOL) y = true) by congruence. apply any_iff. exists n. split; [lia|auto].
    + injection E as <- <-. rewrite IN. split; [auto|]. exists []. split; [constructor|reflexivity].
  - rename n0 into m. match goal with H : FseCall _ _ _ _ _ = _ |- _ => rename H into E end. unfold FseApi.FseCall in E. cbn [ymine].
    destruct (toolong c) eqn:TL; [injection E as <- <- _; rewrite andb_false_r; split; [auto|exists []; split; [constructor|reflexivity]]|].
    destruct (fy_init y) eqn:IN; cbn [negb andb] in E |- *; [|injection E as <- <- _; rewrite IN; split; [auto|exists []; split; [constructor|reflexivity]]].
    destruct (N.leb_spec NVOL m) as [L|L].
    { injection E as <- <- _. rewrite IN. split; [congruence|]. destruct (N.eqb_spec m n); [lia|]. exists []. split; [constructor|reflexivity]. }
    destruct (fexec (gs m) atom MM TM c o1 o2 (fy_vol y m)) as [[r0 v0] t1] eqn:EX. injection E as -> <- ->. cbn [setvol fy_init fy_vol]. rewrite IN. split; [discriminate|].
    destruct (N.eqb_spec m n) as [->|NE]; cbn [andb].
    + rewrite upd_same. exists [FECall c r]. split; [|reflexivity]. eapply FSs_cons; [|constructor]. match goal with H : _ -> _ < NVOL -> _ |- _ => destruct (H ltac:(auto) L ltac:(auto)) end. eapply FS_call; eauto.
    + rewrite upd_other by auto. exists []. split; [constructor|reflexivity].
  - rename n0 into m. match goal with H : FseCall _ _ _ _ _ = _ |- _ => rename H into E end. unfold FseApi.FseCall in E. cbn [ymine fy_init fy_vol].
    split; [auto|]. destruct (N.eqb_spec m n) as [->|NE].
    + destruct (toolong c); [injection E as <- <- <-; contradiction|]. destruct (negb (fy_init y)); [injection E as <- <- <-; contradiction|]. destruct (NVOL <=? n); [injection E as <- <- <-; contradiction|].
      destruct (fexec (gs n) atom MM TM c o1 o2 (fy_vol y n)) as [[r0 v0] t1] eqn:EX. injection E as -> <- ->.
      eexists. split; [eapply FSs_cons; [eapply FS_crash; eauto|constructor]|reflexivity].
    + match goal with H : forall m', m' <> m -> _ |- _ => destruct (H n ltac:(auto)) as (d0 & MH & LO) end.
      eexists. split; [eapply FSs_cons; [eapply FS_lost; eauto|constructor]|reflexivity].
  - cbn [ymine fy_init fy_vol]. split; [auto|]. match goal with H : forall m', _ |- _ => destruct (H n) as (d0 & MH & LO) end.
    eexists. split; [eapply FSs_cons; [eapply FS_lost; eauto|constructor]|reflexivity].
  - rename n0 into m. cbn [setvol fy_init fy_vol]. match goal with H : FseReach.fstep _ _ _ _ _ _ _ _ |- _ => rename H into B end. unfold upd. destruct (N.eqb_spec n m) as [->|NE].
    + split; [inversion B; subst; cbn; intros; rewrite IV in *; auto|]. exists []. split; [eapply FSs_back; [exact B|constructor]|auto].
    + split; [auto|]. exists []. split; [constructor|auto].
Qed.
Lemma fsteps_app' n v t1 v1 t2 v2 : fsteps n v t1 v1 -> fsteps n v1 t2 v2 -> fsteps n v (t1 ++ t2) v2.
Proof. induction 1; cbn; intros; auto; [eapply FSs_cons|eapply FSs_back]; eauto. Qed.
Lemma ymine_steps n y t y' : n < NVOL -> ysteps y t y' -> (fy_init y = false -> v_mnt (fy_vol y n) = false) ->
  fsteps n (fy_vol y n) (ymine NVOL n (fy_init y) t) (fy_vol y' n).
Proof.
  intros LN. induction 1 as [y|y e y1 t y2 S1 _ IH|y y1 t y2 S1 _ IH]; intros IV.
  - constructor.
  - destruct (ymine_step n y (Some e) y1 t LN IV S1) as (IV1 & s & F & ->). eapply fsteps_app'; [exact F|auto].
  - destruct (ymine_step n y None y1 t LN IV S1) as (IV1 & s & F & -> & <-). change (ymine NVOL n (fy_init y1) t) with ([] ++ ymine NVOL n (fy_init y1) t). eapply fsteps_app'; [exact F|auto].
Qed.

(** * C44 *)
(** Each volume behaves as specified by the calls made on it alone, whatever is done to the others. *)
Theorem C44_volumes ds t y n : (forall m, unformatted (ds m)) -> ysteps (mkFsys false (fun m => boot TD (ds m))) t y -> n < NVOL -> cfg_ok (gs n) ->
  exists a, fasteps (INODE_SIZE_MAX (gs n)) (ICNT (gs n)) TM TD (FU None TD) (ymine NVOL n false t) a /\ fobserve (gs n) atom MM TM TD (fy_vol y n) a.
Proof.
  intros U S LN OK. pose proof (ymine_steps n _ _ _ LN S (fun _ => eq_refl)) as F. cbn [fy_init fy_vol] in F.
  apply (C42_refines (gs n) OK atom MM TM TD). exists (ds n). auto.
Qed.
(** Without initialisation, or with a wrong volume number, every call fails and changes nothing. *)
Theorem C44_refused y n c r y' : ystep y (Some (YECall (YCall n c) r)) y' -> fy_init y = false \/ NVOL <= n -> r = Err EINVAL /\ y' = y.
Proof.
  intros S H. inversion S; subst. match goal with H : FseCall _ _ _ _ _ = _ |- _ => rename H into E end. unfold FseApi.FseCall in E.
  destruct (toolong c); [injection E as <- <- _; auto|]. destruct (fy_init y); cbn [negb] in E; [|injection E as <- <- _; auto].
  destruct H as [H|H]; [discriminate|]. destruct (N.leb_spec NVOL n); [|lia]. injection E as <- <- _; auto.
Qed.
(** A call on one volume leaves the others as they are: every call on them gives the same result as before. *)
Theorem C44_others y n c r y' m c' o1 o2 : ystep y (Some (YECall (YCall n c) r)) y' -> m <> n -> fst (fst (FseCall m c' o1 o2 y')) = fst (fst (FseCall m c' o1 o2 y)).
Proof.
  intros S H. inversion S; subst. match goal with H : FseCall _ _ _ _ _ = _ |- _ => rename H into E end.
  assert (EV : fy_vol y' m = fy_vol y m /\ fy_init y' = fy_init y).
  { unfold FseApi.FseCall in E. destruct (toolong c); [injection E as <- <- _; auto|]. destruct (negb (fy_init y)); [injection E as <- <- _; auto|]. destruct (NVOL <=? n); [injection E as <- <- _; auto|].
    destruct (fexec (gs n) atom MM TM c o0 o3 (fy_vol y n)) as [[r0 v0] t1]. injection E as _ <- _. cbn. now rewrite upd_other. }
  destruct EV as [EV EI]. unfold FseApi.FseCall. rewrite EV, EI. destruct (toolong c'); auto. destruct (negb (fy_init y)); auto. destruct (NVOL <=? m); auto.
  destruct (fexec (gs m) atom MM TM c' o1 o2 (fy_vol y m)) as [[r0 v0] t1]. reflexivity.
Qed.
(** The API can be shut down exactly when no volume is mounted, i.e. none answers RedFseTransMaskGet; a refused shutdown
    changes nothing; a second initialisation changes nothing. *)
Definition answers (y : fsys) (n : N) : Prop := exists o1 o2 m, fst (fst (FseCall n FMaskGet o1 o2 y)) = Ok (FNum m).
Theorem C44_uninit y r y' : ystep y (Some (YECall YUninit r)) y' -> fy_init y = true ->
  (r = Err EBUSY /\ y' = y /\ (exists n, answers y n) \/ r = Ok FUnit /\ y' = mkFsys false (fy_vol y) /\ (forall n, ~ answers y n)).
Proof.
  intros S IN. inversion S; subst. match goal with H : RedFseUninit _ _ = _ |- _ => rename H into E end. unfold RedFseUninit in E. rewrite IN in E. cbn [negb] in E.
  assert (AN : forall n, answers y n <-> n < NVOL /\ v_mnt (fy_vol y n) = true).
  { intros n. unfold answers, FseApi.FseCall. cbn [toolong FseVol.fexec]. rewrite IN. cbn [negb]. unfold fmap_, pbind, RedCoreTransMaskGet, pret, setvol.
    destruct (N.leb_spec NVOL n); [split; [intros (? & ? & ? & ?); discriminate|lia]|]. destruct (v_mnt (fy_vol y n)); cbn; (split; [intros (? & ? & ? & ?)|intros [_ ?]]); try discriminate; auto.
    exists (0, fun _ => BJunk), (0, fun _ => BJunk). eauto. }
  destruct (any_mounted (N.to_nat NVOL) y) eqn:AM; injection E as <- <-.
  - left. split; auto. split; auto. apply any_iff in AM. destruct AM as (n & L & M). exists n. apply AN. split; [lia|auto].
  - right. split; auto. split; auto. intros n A. apply AN in A. enough (any_mounted (N.to_nat NVOL) y = true) by congruence. apply any_iff. exists n. split; [lia|tauto].
Qed.
Theorem C44_init y r y' : ystep y (Some (YECall YInit r)) y' -> r = Ok FUnit /\ fy_init y' = true /\ (fy_init y = true -> y' = y).
Proof.
  intros S. inversion S; subst. match goal with H : RedFseInit _ _ = _ |- _ => rename H into E end. unfold RedFseInit in E. destruct (fy_init y) eqn:IN; injection E as <- <-; auto. repeat split; auto; discriminate.
Qed.
End P.
