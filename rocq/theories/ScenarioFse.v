(** Computed histories of the FSE API: the hypotheses of C42, C43 and C44 can be met. *)
From Verif Require Import Base FsState FsInv FsWrite FsCore FsMach FsVolume FsReach Scenario PropFs FseSpec FseVol FseReach PropFse FseApi PropFseApi.

Definition fx c v := fexec g0 true 3 2047 c oo oo v.
Definition fafter v c := snd (fst (fx c v)).
Definition fresult v c := fst (fst (fx c v)).
Definition w0 := boot 0 dev0.
Definition w1 := fafter w0 FFormat.
Definition w2 := fafter w1 FMount.
Definition w3 := fafter w2 (FWrite 5 500 20 (fun x => x + 1)).
Definition w4 := fafter w3 FTransact.
Definition w5 := fafter w4 (FWrite 5 510 4 (fun _ => 99)).
Definition w6 := fafter w5 (FTruncate 5 3).
Definition w7 := fafter w6 FRollback.
Notation fstep0 := (fstep g0 true 3 2047 0).
Lemma fcall_step v c : fallowed v c -> v_seq v + 5 <= UINT64_MAX -> fstep0 v (Some (FECall c (fresult v c))) (fafter v c).
Proof.
  intros Al R. unfold fresult, fafter, fx. destruct (fexec g0 true 3 2047 c oo oo v) as [[r v'] t] eqn:E. cbn [fst snd].
  eapply FS_call; eauto. unfold room, oo; cbn [fst]; lia.
Qed.
Ltac dofcall v c r := let H := fresh in assert (H : fstep0 v (Some (FECall c (fresult v c))) (fafter v c)) by (apply fcall_step; [cbn; try exact I; vm_compute; auto|vm_compute; discriminate]);
  replace (fresult v c) with r in H by (vm_compute; reflexivity); exact H.
Lemma fst1 : fstep0 w0 (Some (FECall FFormat (Ok FUnit))) w1. Proof. dofcall w0 FFormat (@Ok fout FUnit). Qed.
Lemma fst2 : fstep0 w1 (Some (FECall FMount (Ok FUnit))) w2. Proof. dofcall w1 FMount (@Ok fout FUnit). Qed.
Lemma fst3 : fstep0 w2 (Some (FECall (FWrite 5 500 20 (fun x => x + 1)) (Ok (FNum 20)))) w3. Proof. dofcall w2 (FWrite 5 500 20 (fun x => x + 1)) (@Ok fout (FNum 20)). Qed.
Lemma fst4 : fstep0 w3 (Some (FECall FTransact (Ok FUnit))) w4. Proof. dofcall w3 FTransact (@Ok fout FUnit). Qed.
Lemma fst5 : fstep0 w4 (Some (FECall (FWrite 5 510 4 (fun _ => 99)) (Ok (FNum 4)))) w5. Proof. dofcall w4 (FWrite 5 510 4 (fun _ => 99)) (@Ok fout (FNum 4)). Qed.
Lemma fst6 : fstep0 w5 (Some (FECall (FTruncate 5 3) (Ok FUnit))) w6. Proof. dofcall w5 (FTruncate 5 3) (@Ok fout FUnit). Qed.
Notation freach0 := (freach g0 true 3 2047 0).
Lemma fr0 : freach0 w0. Proof. exists [], dev0. split; [split; reflexivity|constructor]. Qed.
Lemma fr1 : freach0 w1. Proof. refine (freach_step _ _ _ _ _ _ _ _ fr0 fst1). Qed.
Lemma fr2 : freach0 w2. Proof. refine (freach_step _ _ _ _ _ _ _ _ fr1 fst2). Qed.
Lemma fr3 : freach0 w3. Proof. refine (freach_step _ _ _ _ _ _ _ _ fr2 fst3). Qed.
Lemma fr4 : freach0 w4. Proof. refine (freach_step _ _ _ _ _ _ _ _ fr3 fst4). Qed.

(** C42: the overwrite and the truncation after the transaction point do not survive a power loss. *)
Example C42_instance : exists W, fshows g0 true 3 2047 w4 W /\ fdurable g0 true 3 2047 0 w6 W /\ W 5 <> None.
Proof.
  destruct (C43_files g0 g0_ok true 3 2047 0 w4 fr4) as (W & SW & _ & FI); [vm_compute; reflexivity|]. exists W. split; auto.
  split; [|apply FI; vm_compute; split; congruence].
  refine (proj1 (C42_power_loss g0 g0_ok true 3 2047 0 w3 FTransact FUnit w4 W fr3 fst4 (or_introl eq_refl) SW _ w6 (FSs_cons _ _ _ _ _ _ _ _ _ _ fst5 (FSs_cons _ _ _ _ _ _ _ _ _ _ fst6 (FSs_nil _ _ _ _ _ _))) _)).
  cbn [fquiet]. vm_compute. auto.
Qed.
Definition fbytes r := match r with Ok (FData n f) => Some (n, map (fun k => f (N.of_nat k)) (seq 0 (N.to_nat n))) | _ => None end.
Example C42_observed :
  fbytes (fresult w4 (FRead 5 505 10)) = Some (10, [6; 7; 8; 9; 10; 11; 12; 13; 14; 15]) /\
  fbytes (fresult w5 (FRead 5 505 10)) = Some (10, [6; 7; 8; 9; 10; 99; 99; 99; 99; 15]) /\
  fresult w6 (FSizeGet 5) = Ok (FNum 3) /\
  fresult w7 (FSizeGet 5) = Ok (FNum 520) /\ fbytes (fresult w7 (FRead 5 505 10)) = Some (10, [6; 7; 8; 9; 10; 11; 12; 13; 14; 15]).
Proof. vm_compute. repeat split; reflexivity. Qed.
(** C43: files 2 to 11 exist. *)
Example C43_observed :
  fresult w2 (FSizeGet 2) = Ok (FNum 0) /\ fresult w2 (FSizeGet 11) = Ok (FNum 0) /\ fresult w2 (FSizeGet 12) = Err EBADF /\ fresult w2 (FSizeGet 1) = Err EBADF /\
  fresult w2 (FWrite 12 0 1 (fun x => x)) = Err EBADF /\ fresult w2 FFormat = Err EBUSY /\ fresult w1 (FSizeGet 2) = Err EINVAL /\
  fresult w2 (FRead 2 0 2147483648) = Err EINVAL /\ fresult w2 (FTruncate 2 (INODE_SIZE_MAX g0 + 1)) = Err EFBIG.
Proof. vm_compute. repeat split; reflexivity. Qed.
Example C43_instance : fshows g0 true 3 2047 w3 (fapply (Fnew 10) (FECall (FWrite 5 500 20 (fun x => x + 1)) (Ok (FNum 20)))).
Proof.
  destruct (C43_format g0 g0_ok true 3 2047 0 w0 w1 w2 fr0 fst1 fst2) as [SW _].
  refine (proj2 (C43_call g0 g0_ok true 3 2047 0 w2 _ _ w3 _ fr2 fst3 eq_refl SW _)).
  intros i sz b E. unfold Fnew in E. destruct (_ && _); [|discriminate]. injection E as <- <-. split; [apply N.le_0_l|auto].
Qed.
(** Right after the transaction point the file can be shrunk. *)
Lemma fst6' : fstep0 w4 (Some (FECall (FTruncate 5 3) (Ok FUnit))) (fafter w4 (FTruncate 5 3)). Proof. dofcall w4 (FTruncate 5 3) (@Ok fout FUnit). Qed.
Lemma size520 : fst (fst (fexec g0 true 3 2047 (FSizeGet 5) oo oo w4)) = Ok (FNum 520). Proof. vm_compute. reflexivity. Qed.
Lemma shown520 W : fshows g0 true 3 2047 w4 W -> exists b, W 5 = Some (520, b).
Proof.
  intros SW. pose proof size520 as E. destruct (proj2 SW (FSizeGet 5) oo oo eq_refl) as (r & t & R & X). rewrite R in E. cbn [fst] in E. rewrite E in X. exact X.
Qed.
Lemma w4_mnt : v_mnt w4 = true. Proof. vm_compute. reflexivity. Qed.
Lemma g0_resv : MAXCOST g0 <= RESV g0 <= NALLOC g0. Proof. vm_compute. split; congruence. Qed.
Example C43_shrink_instance : forall r v', fstep0 w4 (Some (FECall (FTruncate 5 3) r)) v' -> r = Ok FUnit.
Proof.
  intros r v' S. destruct (C43_files g0 g0_ok true 3 2047 0 w4 fr4 w4_mnt) as (W & SW & _). destruct (shown520 W SW) as (b & W5).
  exact (C43_shrink g0 g0_ok true 3 2047 0 w3 FTransact FUnit w4 5 520 b 3 r v' W g0_resv fr3 fst4 (or_introl eq_refl) SW W5 eq_refl S).
Qed.

(** C44: two volumes; the second is formatted, mounted and written while the first is not even formatted. *)
Definition yc n c y := FseCall 2 (fun _ => g0) true 3 2047 n c oo oo y.
Definition yafter y n c := snd (fst (yc n c y)).
Definition yresult y n c := fst (fst (yc n c y)).
Definition y0 := mkFsys false (fun _ => boot 0 dev0).
Definition y1 := snd (RedFseInit 0 y0).
Definition y2 := yafter y1 1 FFormat.
Definition y3 := yafter y2 1 FMount.
Definition y4 := yafter y3 1 (FWrite 4 0 3 (fun x => x + 7)).
Notation ystep0 := (ystep 2 (fun _ => g0) true 3 2047 0).
Lemma ycall_step y n c : fallowed (fy_vol y n) c -> v_seq (fy_vol y n) + 5 <= UINT64_MAX -> ystep0 y (Some (YECall (YCall n c) (yresult y n c))) (yafter y n c).
Proof.
  intros Al R. unfold yresult, yafter, yc. destruct (FseCall 2 (fun _ => g0) true 3 2047 n c oo oo y) as [[r y'] t] eqn:E. cbn [fst snd].
  eapply Y_call; eauto. intros _ _ _. split; auto. unfold room, oo; cbn [fst]; lia.
Qed.
Ltac doycall y n c r := let H := fresh in assert (H : ystep0 y (Some (YECall (YCall n c) (yresult y n c))) (yafter y n c)) by (apply ycall_step; [cbn; try exact I; vm_compute; auto|vm_compute; discriminate]);
  replace (yresult y n c) with r in H by (vm_compute; reflexivity); exact H.
Lemma yst1 : ystep0 y0 (Some (YECall YInit (Ok FUnit))) y1. Proof. apply Y_init. reflexivity. Qed.
Lemma yst2 : ystep0 y1 (Some (YECall (YCall 1 FFormat) (Ok FUnit))) y2. Proof. doycall y1 1 FFormat (@Ok fout FUnit). Qed.
Lemma yst3 : ystep0 y2 (Some (YECall (YCall 1 FMount) (Ok FUnit))) y3. Proof. doycall y2 1 FMount (@Ok fout FUnit). Qed.
Lemma yst4 : ystep0 y3 (Some (YECall (YCall 1 (FWrite 4 0 3 (fun x => x + 7))) (Ok (FNum 3)))) y4. Proof. doycall y3 1 (FWrite 4 0 3 (fun x => x + 7)) (@Ok fout (FNum 3)). Qed.
Example C44_instance : exists t a, ysteps 2 (fun _ => g0) true 3 2047 0 y0 t y4 /\ length t = 4%nat /\ ymine 2 0 false t = [FECrash None] /\
  fasteps (INODE_SIZE_MAX g0) 10 2047 0 (FU None 0) (ymine 2 1 false t) a /\ fobserve g0 true 3 2047 0 (fy_vol y4 1) a.
Proof.
  pose proof (Ys_cons _ _ _ _ _ _ _ _ _ _ _ yst1 (Ys_cons _ _ _ _ _ _ _ _ _ _ _ yst2 (Ys_cons _ _ _ _ _ _ _ _ _ _ _ yst3 (Ys_cons _ _ _ _ _ _ _ _ _ _ _ yst4 (Ys_nil _ _ _ _ _ _ _))))) as S.
  destruct (C44_volumes 2 (fun _ => g0) true 3 2047 0 (fun _ => dev0) _ y4 1 (fun _ => conj eq_refl eq_refl) S ltac:(reflexivity) g0_ok) as (a & A & O).
  exists [YECall YInit (Ok FUnit); YECall (YCall 1 FFormat) (Ok FUnit); YECall (YCall 1 FMount) (Ok FUnit); YECall (YCall 1 (FWrite 4 0 3 (fun x => x + 7))) (Ok (FNum 3))], a. split; [exact S|]. split; [reflexivity|]. split; [reflexivity|]. split; [exact A|exact O].
Qed.
Example C44_observed :
  yresult y0 1 FFormat = Err EINVAL /\ yresult y1 2 FFormat = Err EINVAL /\ yresult y4 0 FMount = Err EIO /\ yresult y4 0 (FSizeGet 4) = Err EINVAL /\ yresult y4 1 (FSizeGet 4) = Ok (FNum 3) /\
  fst (RedFseUninit 2 y4) = Err EBUSY /\ fst (RedFseUninit 2 y2) = Ok FUnit /\ fbytes (yresult y4 1 (FRead 4 0 9)) = Some (3, [7; 8; 9]).
Proof. vm_compute. repeat split; reflexivity. Qed.
