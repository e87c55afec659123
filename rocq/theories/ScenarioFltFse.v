(** Concrete device failures under the FSE API: the hypotheses of the theorems of PropFltFse.v can be met. *)
From Verif Require Import Base Count FsState FsImap FsInode FsData FsInv FsDir FsCore FsSpec FsMach FsVolume FsReach PropFs Scenario FseSpec FseVol FseReach PropFse ScenarioFse.
From Verif Require Import FltMonad FltImap FltInode FltData FltDir FltVolume FltVolumeP FseFltSpec FltFse FltFseReach PropFltFse.
Close Scope flt_scope.

Notation fexecF0 := (fexecF g0 true 3 2047).
Lemma xreach_of v : freach g0 true 3 2047 0 v -> xreach g0 true 3 2047 0 v.
Proof. intros (t & H). exists t. apply C46_includes; [exact g0_ok|exact H]. Qed.
Lemma fr5 : freach g0 true 3 2047 0 w5. Proof. refine (freach_step _ _ _ _ _ _ _ _ fr4 fst5). Qed.
Lemma fr6 : freach g0 true 3 2047 0 w6. Proof. refine (freach_step _ _ _ _ _ _ _ _ fr5 fst6). Qed.
Definition xr6 := xreach_of w6 fr6.

(** The last flush of a transaction reports a failure although the new metaroot has reached the media. *)
Definition after_flush (v : vol) : vol :=
  let dk' b := if s_wr (v_s v) b && negb (cur (v_s v) b) then snd oo b else dk (v_s v) b in
  let d2 := dflush (dwrite (s_wr (v_s v)) dk' (v_d v)) in
  mkV (mkSt dk' (fun _ => false) (newMR (v_s v)) (s_c (v_s v)) 0 (s_br (v_s v)) true (s_res (v_s v)))
      (dflush (dwmr (v_cur v) (MOk (v_seq v + 1) (newMR (v_s v))) d2)) (v_mnt v) (v_cur v) (v_seq v + 1 + 1) (v_mask v).
(** Writing the dirty blocks fails: nothing reaches the media. *)
Definition no_write (v : vol) : vol := mkV (set_ro true (set_afree 0 (set_w (newMR (v_s v)) (v_s v)))) (v_d v) (v_mnt v) (v_cur v) (v_seq v + 1) (v_mask v).
Lemma transact_fails v : v_mnt v = true -> s_ro (v_s v) = false -> s_br (v_s v) = true -> v_seq v + 1 < UINT64_MAX ->
  (exists t, fexecF0 FTransact oo oo v (Err EIO) (after_flush v) t) /\ exists t, fexecF0 FTransact oo oo v (Err EIO) (no_write v) t.
Proof.
  intros MN RO BR SQ. split; eexists; cbn [FltFse.fexecF]; exists (Err EIO); eexists; eexists; (split; [|split; [reflexivity|split; reflexivity]]);
    unfold FltVolume.RedCoreVolTransact, fguard; rewrite MN, RO; cbn [negb]; (split; [exact RO|]); right; (split; [exact BR|]); (split; [reflexivity|]).
  - right. split; [exact SQ|]. cbv zeta. eexists. eexists. split; [right; left; reflexivity|]. split; [right; reflexivity|]. split; reflexivity.
  - left. exists (v_d v). split; [apply mayhap_refl|]. split; reflexivity.
Qed.
Lemma mnt6 : v_mnt w6 = true. Proof. vm_compute. reflexivity. Qed.
Lemma ro6 : s_ro (v_s w6) = false. Proof. vm_compute. reflexivity. Qed.
Lemma br6 : s_br (v_s w6) = true. Proof. vm_compute. reflexivity. Qed.
Lemma seq6 : v_seq w6 + 1 < UINT64_MAX. Proof. vm_compute. reflexivity. Qed.
Lemma room6 : room w6 oo oo. Proof. vm_compute. discriminate. Qed.
Lemma fok6 : fst (fst (fexec g0 true 3 2047 FTransact oo oo w6)) = Ok FUnit. Proof. vm_compute. reflexivity. Qed.
Lemma fnot_exec_gen (x : res fout * vol * list snap) w t : fst (fst x) = Ok FUnit -> x <> (Err EIO, w, t).
Proof. intros K E. rewrite E in K. discriminate K. Qed.
Example C46_instance w t : fexecF0 FTransact oo oo w6 (Err EIO) w t ->
  exists W C, fshows g0 true 3 2047 w6 W /\ fdurable g0 true 3 2047 0 w6 C /\
    forall t2 v2, xsteps g0 true 3 2047 0 w t2 v2 -> Forall fstays t2 ->
      v_mnt v2 = true /\ s_ro (v_s v2) = true /\ Forall frefused t2 /\ fsurvives g0 true 3 2047 0 v2 (fleaves g0 W C (v_mask w6) FTransact).
Proof.
  intros H. exact (C46_stays_readonly g0 g0_ok true 3 2047 0 w6 FTransact oo oo (Err EIO) w t xr6 mnt6 ro6 room6 H (fnot_exec_gen _ w t fok6) eq_refl).
Qed.
Example C46_instances : (exists t, fexecF0 FTransact oo oo w6 (Err EIO) (after_flush w6) t) /\ exists t, fexecF0 FTransact oo oo w6 (Err EIO) (no_write w6) t.
Proof. exact (transact_fails w6 mnt6 ro6 br6 seq6). Qed.
(** The overwrite and truncation of file 5 since the last transaction point are there after the first failure and gone after
    the second; in both cases the volume is writable again after unmounting and mounting it. *)
Definition fre w := fafter (fafter w FUnmount) FMount.
Example C46_results :
  fresult (after_flush w6) (FWrite 5 0 1 (fun x => x)) = Err EROFS /\ fresult (no_write w6) FTransact = Err EROFS /\
  fresult (after_flush w6) FUnmount = Ok FUnit /\ fresult (no_write w6) FMount = Ok FUnit /\
  fresult (fre (after_flush w6)) (FSizeGet 5) = Ok (FNum 3) /\ fresult (fre (no_write w6)) (FSizeGet 5) = Ok (FNum 520) /\
  fresult (fre (after_flush w6)) (FWrite 5 0 1 (fun x => x)) = Ok (FNum 1) /\ fresult (fre (no_write w6)) (FWrite 5 0 1 (fun x => x)) = Ok (FNum 1).
Proof. vm_compute. repeat split; reflexivity. Qed.
Example C46_stable : stable true (v_d (fafter (after_flush w6) FUnmount)) /\ stable true (v_d (fafter (no_write w6) FUnmount)).
Proof. unfold stable. vm_compute. repeat split; right; reflexivity. Qed.

(** RedFseSizeGet cannot read the inode. *)
Definition noread (v : vol) : vol := vset_s (set_ro true (v_s v)) v.
Lemma size_fail v i : v_mnt v = true -> INODE_IS_VALID g0 i = true -> fexecF0 (FSizeGet i) oo oo v (Err EIO) (noread v) [mayhap (s_wr (v_s v)) (v_d v)].
Proof.
  intros MN IV. cbn [FltFse.fexecF]. exists (Err EIO), (noread v), [mayhap (s_wr (v_s v)) (v_d v)]. split; [|auto].
  unfold FltVolume.mounted. rewrite MN. cbn [negb].
  exists (set_ro true (v_s v)). split; [|split; reflexivity].
  exists (Err EIO), (set_ro true (v_s v)). split; [|auto]. unfold FltInode.RedInodeMount. rewrite IV. cbn [negb].
  exists (Err EIO), (set_ro true (v_s v)). split; [|auto].
  unfold FltInode.InodeGetCurrentCopy. exists (Err EIO), (set_ro true (v_s v)). split; [|auto].
  unfold FltInode.RedInodeBitGet. rewrite IV. right. auto.
Qed.
Lemma valid5 : INODE_IS_VALID g0 5 = true. Proof. vm_compute. reflexivity. Qed.
Example C46_read_instance : exists W C, fshows g0 true 3 2047 w6 W /\ fdurable g0 true 3 2047 0 w6 C /\ fshows g0 true 3 2047 (noread w6) W /\ fdurable g0 true 3 2047 0 (noread w6) C.
Proof.
  destruct (C46_failed_read g0 g0_ok true 3 2047 0 w6 (FSizeGet 5) oo oo (noread w6) _ xr6 mnt6 ro6 room6 eq_refl (size_fail w6 5 mnt6 valid5)) as (W & C & H1 & H2 & H).
  destruct (H [] (noread w6) (XSs_nil _ _ _ _ _ _) (Forall_nil _)) as (_ & H3 & H4 & _). exists W, C. auto.
Qed.
Example C46_read_results : fresult (noread w6) (FSizeGet 5) = Ok (FNum 3) /\ fresult (noread w6) (FTruncate 5 1) = Err EROFS /\
  fresult (fre (noread w6)) (FSizeGet 5) = Ok (FNum 520) /\ fresult (fre (noread w6)) (FTruncate 5 1) = Ok FUnit.
Proof. vm_compute. repeat split; reflexivity. Qed.

(** Formatting the unmounted volume fails in the flush after invalidating the master block. *)
Definition t6 : vol := fafter w6 FTransact.
Definition u6 : vol := fafter t6 FUnmount.
Lemma fst_t6 : fstep g0 true 3 2047 0 w6 (Some (FECall FTransact (Ok FUnit))) t6.
Proof. dofcall w6 FTransact (@Ok fout FUnit). Qed.
Lemma fst_u6 : fstep g0 true 3 2047 0 t6 (Some (FECall FUnmount (Ok FUnit))) u6.
Proof. dofcall t6 FUnmount (@Ok fout FUnit). Qed.
Lemma fr_t6 : freach g0 true 3 2047 0 t6. Proof. refine (freach_step _ _ _ _ _ _ _ _ fr6 fst_t6). Qed.
Lemma xr_u6 : xreach g0 true 3 2047 0 u6.
Proof. apply xreach_of. refine (freach_step _ _ _ _ _ _ _ _ fr_t6 fst_u6). Qed.
Lemma mnt_u6 : v_mnt u6 = false. Proof. vm_compute. reflexivity. Qed.
Lemma af_u6 : s_afree (v_s u6) = 0. Proof. vm_compute. reflexivity. Qed.
Lemma room_u6 : room u6 oo oo. Proof. vm_compute. discriminate. Qed.
Definition ff1 (v : vol) : vol := vset_s (set_ro true (v_s v)) (vset_d (dflush (dwmst None (v_d v))) v).
Lemma fformat_fail v : v_mnt v = false -> fexecF0 FFormat oo oo v (Err EIO) (ff1 v) [part (dwmst None (v_d v))].
Proof.
  intros MN. cbn [FltFse.fexecF]. exists (Err EIO), (ff1 v), [part (dwmst None (v_d v))]. split; [|auto].
  unfold FltVolume.RedVolFormatWith. rewrite MN. right. left.
  unfold FormatBody. exists (Err EIO), (ff1 v), [part (dwmst None (v_d v))]. split; [|auto].
  exists (Err EIO), (ff1 v), [part (dwmst None (v_d v))]. split; [|auto].
  right. split; auto. exists None, (dflush (dwmst None (v_d v))). split; auto. split; [apply FltVolumeP.part_flush|]. split; reflexivity.
Qed.
Lemma C46_format_failed w t : fexecF0 FFormat oo oo u6 (Err EIO) w t ->
  v_mnt w = false /\ fleaves_one g0 true 3 2047 0 w (for_fresh g0 (fleft g0 true 3 2047 0 u6)).
Proof.
  intros H. destruct (C46_failed_format g0 g0_ok true 3 2047 0 u6 oo oo (Err EIO) w t xr_u6 mnt_u6 af_u6 room_u6 H) as (A1 & _ & [(_ & Q & _)|(_ & A2 & _)]); [discriminate Q|]. split; auto.
Qed.
Example C46_format_instance : v_mnt (ff1 u6) = false /\ fleaves_one g0 true 3 2047 0 (ff1 u6) (for_fresh g0 (fleft g0 true 3 2047 0 u6)).
Proof. exact (C46_format_failed _ _ (fformat_fail u6 mnt_u6)). Qed.
Example C46_format_results :
  fresult (fafter u6 FMount) (FSizeGet 5) = Ok (FNum 3) /\
  fresult (ff1 u6) FMount = Err EIO /\ fresult (ff1 u6) FFormat = Ok FUnit /\ fresult (fafter (fafter (ff1 u6) FFormat) FMount) (FSizeGet 5) = Ok (FNum 0) /\
  stable true (v_d (ff1 u6)).
Proof. unfold stable. vm_compute. repeat (split; try reflexivity); first [left; reflexivity|right; reflexivity]. Qed.
