(** Concrete device failures: the hypotheses of the theorems of PropFlt.v can be met, with both outcomes. *)
From Verif Require Import Base Count FsState FsImap FsInode FsData FsInv FsDir FsCore FsSpec FsMach FsVolume FsVolumeP FsReach FsKeep PropFs PropVol Scenario.
From Verif Require Import FltMonad FltImap FltInode FltData FltDir FltVolume FltSpec FltReach PropFlt.
Close Scope flt_scope.

Notation execF0 := (execF g0 true 1 2047).
Notation fstep0 := (fstep g0 true 1 2047 0).
Lemma freach4 : freach g0 true 1 2047 0 v4.
Proof. destruct reach4 as (t & H). exists t. apply C45_includes; [exact g0_ok|exact H]. Qed.

(** Writing the dirty blocks fails: nothing reaches the media. *)
Definition w1 : vol := mkV (set_ro true (set_afree 0 (set_w (newMR (v_s v4)) (v_s v4)))) (v_d v4) (v_mnt v4) (v_cur v4) (v_seq v4 + 1) (v_mask v4).
Lemma w1_fail : execF0 CTransact oo oo v4 (Err EIO) w1 [mayhap (s_wr (v_s v4)) (v_d v4)].
Proof.
  cbn [FltVolume.execF]. exists (Err EIO), w1, [mayhap (s_wr (v_s v4)) (v_d v4)]. split; [|auto].
  unfold FltVolume.RedCoreVolTransact, fguard. replace (v_mnt v4) with true by (vm_compute; reflexivity).
  replace (s_ro (v_s v4)) with false by (vm_compute; reflexivity). cbn [negb].
  split; [vm_compute; reflexivity|]. right. split; [vm_compute; reflexivity|]. split; [reflexivity|]. left.
  exists (v_d v4). split; [apply FltVolumeP.mayhap_refl|]. split; reflexivity.
Qed.
(** The last flush reports a failure although the new metaroot has reached the media. *)
Definition dk4 b := if s_wr (v_s v4) b && negb (cur (v_s v4) b) then snd oo b else dk (v_s v4) b.
Definition d4 := dflush (dwrite (s_wr (v_s v4)) dk4 (v_d v4)).
Definition x4 := MOk (v_seq v4 + 1) (newMR (v_s v4)).
Definition w2 : vol := mkV (mkSt dk4 (fun _ => false) (newMR (v_s v4)) (s_c (v_s v4)) 0 (s_br (v_s v4)) true (s_res (v_s v4)))
  (dflush (dwmr (v_cur v4) x4 d4)) (v_mnt v4) (v_cur v4) (v_seq v4 + 1 + 1) (v_mask v4).
Definition t4 : list snap := [mayhap (s_wr (v_s v4)) (v_d v4); eq (dwrite (s_wr (v_s v4)) dk4 (v_d v4)); eq d4; eq (dwmr (v_cur v4) x4 d4); eq (dflush (dwmr (v_cur v4) x4 d4))].
Lemma seq4 : v_seq v4 + 1 < UINT64_MAX. Proof. vm_compute. reflexivity. Qed.
Lemma w2_fail : execF0 CTransact oo oo v4 (Err EIO) w2 t4.
Proof.
  cbn [FltVolume.execF]. exists (Err EIO), w2, t4. split; [|auto].
  unfold FltVolume.RedCoreVolTransact, fguard. replace (v_mnt v4) with true by (vm_compute; reflexivity).
  replace (s_ro (v_s v4)) with false by (vm_compute; reflexivity). cbn [negb].
  split; [vm_compute; reflexivity|]. right. split; [vm_compute; reflexivity|]. split; [reflexivity|]. right. split; [exact seq4|].
  exists x4, (dflush (dwmr (v_cur v4) x4 d4)). split; [right; left; reflexivity|]. split; [right; reflexivity|]. split; reflexivity.
Qed.
(** The metaroot write is torn. *)
Definition x4' := MBad true.
Definition w3 : vol := mkV (mkSt dk4 (fun _ => false) (newMR (v_s v4)) (s_c (v_s v4)) 0 (s_br (v_s v4)) true (s_res (v_s v4)))
  (dwmr (v_cur v4) x4' d4) (v_mnt v4) (v_cur v4) (v_seq v4 + 1 + 1) (v_mask v4).
Definition t4' : list snap := [mayhap (s_wr (v_s v4)) (v_d v4); eq (dwrite (s_wr (v_s v4)) dk4 (v_d v4)); eq d4; eq (dwmr (v_cur v4) x4' d4); eq (dwmr (v_cur v4) x4' d4)].
Lemma w3_fail : execF0 CTransact oo oo v4 (Err EIO) w3 t4'.
Proof.
  cbn [FltVolume.execF]. exists (Err EIO), w3, t4'. split; [|auto].
  unfold FltVolume.RedCoreVolTransact, fguard. replace (v_mnt v4) with true by (vm_compute; reflexivity).
  replace (s_ro (v_s v4)) with false by (vm_compute; reflexivity). cbn [negb].
  split; [vm_compute; reflexivity|]. right. split; [vm_compute; reflexivity|]. split; [reflexivity|]. right. split; [exact seq4|].
  exists x4', (dwmr (v_cur v4) x4' d4). split; [right; right; exists true; split; [reflexivity|auto]|]. split; [left; reflexivity|]. split; reflexivity.
Qed.
Lemma not_exec_gen (x : res out * vol * list snap) w t : fst (fst x) = Ok OUnit -> x <> (Err EIO, w, t).
Proof. intros K E. rewrite E in K. discriminate K. Qed.
Lemma ok4 : fst (fst (exec g0 true 1 2047 CTransact oo oo v4)) = Ok OUnit. Proof. vm_compute. reflexivity. Qed.
Definition not_exec w t : exec g0 true 1 2047 CTransact oo oo v4 <> (Err EIO, w, t) := not_exec_gen _ w t ok4.
Lemma room4 : room v4 oo oo. Proof. vm_compute. discriminate. Qed.

(** The theorems apply to all three. *)
Lemma mnt4 : v_mnt v4 = true. Proof. vm_compute. reflexivity. Qed.
Lemma ro4 : s_ro (v_s v4) = false. Proof. vm_compute. reflexivity. Qed.
Example C45_instance w t : execF0 CTransact oo oo v4 (Err EIO) w t ->
  exists W C, shows g0 true 1 2047 v4 W /\ durable g0 true 1 2047 0 v4 C /\
    forall t2 v2, fsteps g0 true 1 2047 0 w t2 v2 -> Forall stays t2 -> v_mnt v2 = true /\ s_ro (v_s v2) = true /\ Forall refused t2 /\ survives g0 true 1 2047 0 v2 (leaves g0 W C (v_mask v4) CTransact).
Proof.
  intros H. exact (C45_stays_readonly g0 g0_ok true 1 2047 0 v4 CTransact oo oo (Err EIO) w t freach4 mnt4 ro4 Logic.I Logic.I room4 H (not_exec w t) eq_refl).
Qed.
Example C45_instances : exists w t, execF0 CTransact oo oo v4 (Err EIO) w t. Proof. exists w1. eexists. exact w1_fail. Qed.
(** The file created since the last transaction point is gone after w1 and w3 and there after w2; in all cases the
    volume is writable again after unmounting and mounting it. *)
Definition re w := after (after w CUnmount) (CMount 0).
Example C45_results :
  result w1 (CUnlink 2 A) = Err EROFS /\ result w1 CTransact = Err EROFS /\ result w1 CUnmount = Ok OUnit /\
  result (re w1) (CLookup 2 A) = Err ENOENT /\ result (re w2) (CLookup 2 A) = Ok (ONum 3) /\ result (re w3) (CLookup 2 A) = Err ENOENT /\
  rd (result (re w2) (CRead 3 505 10)) = Some (10, [6; 7; 8; 9; 10; 11; 12; 13; 14; 15]) /\
  result (re w1) (CCreate 2 B false) = Ok (ONum 3) /\ result (re w2) (CCreate 2 B false) = Ok (ONum 4) /\ result (re w3) (CCreate 2 B false) = Ok (ONum 3).
Proof. vm_compute. repeat split; reflexivity. Qed.
(** [stable] holds in all three cases. *)
Example C45_stable : stable true (v_d (after w1 CUnmount)) /\ stable true (v_d (after w2 CUnmount)) /\ stable true (v_d (after w3 CUnmount)).
Proof. unfold stable. vm_compute. repeat split; right; reflexivity. Qed.

(** A stat that cannot read the inode. *)
Definition broken (v : vol) : vol := vset_s (set_ro true (v_s v)) v.
Lemma stat_fail v i : v_mnt v = true -> INODE_IS_VALID g0 i = true -> execF0 (CStat i) oo oo v (Err EIO) (broken v) [mayhap (s_wr (v_s v)) (v_d v)].
Proof.
  intros MN IV. cbn [FltVolume.execF]. exists (Err EIO), (broken v), [mayhap (s_wr (v_s v)) (v_d v)]. split; [|auto].
  unfold FltVolume.mounted. rewrite MN. cbn [negb].
  exists (set_ro true (v_s v)). split; [|split; reflexivity].
  exists (Err EIO), (set_ro true (v_s v)). split; [|auto]. unfold FltInode.RedInodeMount. rewrite IV. cbn [negb].
  exists (Err EIO), (set_ro true (v_s v)). split; [|auto].
  unfold FltInode.InodeGetCurrentCopy. exists (Err EIO), (set_ro true (v_s v)). split; [|auto].
  unfold FltInode.RedInodeBitGet. rewrite IV. right. auto.
Qed.
Definition w4 : vol := broken v4.
Lemma valid3 : INODE_IS_VALID g0 3 = true. Proof. vm_compute. reflexivity. Qed.
Lemma w4_fail : execF0 (CStat 3) oo oo v4 (Err EIO) w4 [mayhap (s_wr (v_s v4)) (v_d v4)].
Proof. exact (stat_fail v4 3 mnt4 valid3). Qed.
Example C45_read_instance : exists W C, shows g0 true 1 2047 v4 W /\ durable g0 true 1 2047 0 v4 C /\ shows g0 true 1 2047 w4 W /\ durable g0 true 1 2047 0 w4 C.
Proof.
  destruct (C45_failed_read g0 g0_ok true 1 2047 0 v4 (CStat 3) oo oo w4 _ freach4 mnt4 ro4 Logic.I Logic.I room4 eq_refl w4_fail) as (W & C & H1 & H2 & H3 & H4 & _).
  exists W, C. auto.
Qed.
Example C45_read_results : result w4 (CLookup 2 A) = Ok (ONum 3) /\ result w4 (CUnlink 2 A) = Err EROFS /\ result (re w4) (CLookup 2 A) = Err ENOENT.
Proof. vm_compute. repeat split; reflexivity. Qed.

(** Formatting the unmounted volume fails: (1) in the flush after invalidating the master block, (2) when the device is
    closed after everything has been written. *)
Definition w5 : vol := after v5 CUnmount.
Lemma reach_w5 : reach0 w5.
Proof. assert (S : step0 v5 (Some (ECall CUnmount (Ok OUnit))) w5) by docall v5 CUnmount (@Ok out OUnit). eapply reach0_step; [exact reach5|exact S]. Qed.
Definition f1 (v : vol) : vol := vset_s (set_ro true (v_s v)) (vset_d (dflush (dwmst None (v_d v))) v).
Lemma format_fail1 v : v_mnt v = false -> execF0 CFormat oo oo v (Err EIO) (f1 v) [part (dwmst None (v_d v))].
Proof.
  intros MN. cbn [FltVolume.execF]. exists (Err EIO), (f1 v), [part (dwmst None (v_d v))]. split; [|auto].
  unfold FltVolume.RedVolFormat, FltVolume.RedVolFormatWith. rewrite MN. right. left.
  unfold FormatBody. exists (Err EIO), (f1 v), [part (dwmst None (v_d v))]. split; [|auto].
  exists (Err EIO), (f1 v), [part (dwmst None (v_d v))]. split; [|auto].
  right. split; auto. exists None, (dflush (dwmst None (v_d v))). split; auto. split; [apply FltVolumeP.part_flush|]. split; reflexivity.
Qed.
Lemma format_fail2 v w t : reach0 v -> v_mnt v = false -> s_afree (v_s v) = 0 -> room v oo oo -> exec g0 true 1 2047 CFormat oo oo v = (Ok OUnit, w, t) -> execF0 CFormat oo oo v (Err EIO) w t.
Proof.
  intros R MN AF RM E. destruct (reach_sim g0 g0_ok true 1 2047 0 v R) as (a & S).
  pose proof (exec_incl g0 g0_ok true 1 2047 0 CFormat oo oo v a _ _ _ S Logic.I (or_intror AF) RM E) as X. cbn [FltVolume.execF] in X |- *.
  destruct X as (r1 & v1 & t1 & X & K). destruct r1 as [[]|e]; [|destruct K as (K & _); discriminate K]. destruct K as (t2 & K & ->). injection K as -> <-. rewrite app_nil_r.
  exists (Err EIO), w, t1. split; [|auto]. unfold FltVolume.RedVolFormat, FltVolume.RedVolFormatWith in *. rewrite MN in *.
  destruct X as [(Q & _)|[X|(Q & _)]]; try discriminate Q. right. right. split; [reflexivity|exact X].
Qed.
Definition f2 : vol := after w5 CFormat.
Lemma mnt5 : v_mnt w5 = false. Proof. vm_compute. reflexivity. Qed.
Lemma af5 : s_afree (v_s w5) = 0. Proof. vm_compute. reflexivity. Qed.
Lemma room5 : room w5 oo oo. Proof. vm_compute. discriminate. Qed.
Lemma ok5 : result w5 CFormat = Ok OUnit. Proof. vm_compute. reflexivity. Qed.
Lemma format_fail2' : execF0 CFormat oo oo w5 (Err EIO) f2 (snd (ex CFormat w5)).
Proof.
  apply (format_fail2 w5 f2 _ reach_w5 mnt5 af5 room5). pose proof ok5 as E. unfold f2, after, result, ex in *. clear - E.
  destruct (exec g0 true 1 2047 CFormat oo oo w5) as [[r1 v1] t1]. cbn [fst snd] in *. congruence.
Qed.
Lemma freach_w5 : freach g0 true 1 2047 0 w5.
Proof. destruct reach_w5 as (t & H). exists t. apply C45_includes; [exact g0_ok|exact H]. Qed.
Example C45_format_instance w t : execF0 CFormat oo oo w5 (Err EIO) w t ->
  v_mnt w = false /\ leaves_one g0 true 1 2047 0 w (or_fresh (left_ g0 true 1 2047 0 w5)).
Proof.
  intros H. destruct (C45_failed_format g0 g0_ok true 1 2047 0 w5 oo oo (Err EIO) w t freach_w5 mnt5 af5 room5 H) as (A1 & _ & [(_ & Q & _)|(_ & A2 & _)]); [discriminate Q|]. split; auto.
Qed.
(** After (1) there is nothing to mount, but the volume can be formatted; after (2) it is formatted.  Before, file A was
    there. *)
Example C45_format_results :
  result (after w5 (CMount 0)) (CLookup 2 A) = Ok (ONum 3) /\
  result (f1 w5) (CMount 0) = Err EIO /\ result (f1 w5) CFormat = Ok OUnit /\ result (after (after (f1 w5) CFormat) (CMount 0)) (CLookup 2 A) = Err ENOENT /\
  result f2 (CMount 0) = Ok OUnit /\ result (after f2 (CMount 0)) (CLookup 2 A) = Err ENOENT /\ stable true (v_d (f1 w5)) /\ stable true (v_d f2).
Proof. unfold stable. vm_compute. repeat (split; try reflexivity); first [left; reflexivity|right; reflexivity]. Qed.

(** Without [stable] the claim is false of the code.  The transaction that deletes file A fails in its last flush, after
    the metaroot has reached the volatile cache of the device.  The volume is unmounted and mounted again: it shows the
    new state and takes it for committed, so a new file B is given the blocks of A.  Then power is lost, the cached
    metaroot with it: the state left is none that a power loss could have left, A has the contents of B. *)
Section Unsettled.
Let dk7 b := if s_wr (v_s v7) b && negb (cur (v_s v7) b) then snd oo b else dk (v_s v7) b.
Let d7 := dflush (dwrite (s_wr (v_s v7)) dk7 (v_d v7)).
Let x7 := MOk (v_seq v7 + 1) (newMR (v_s v7)).
Definition u1 : vol := mkV (mkSt dk7 (fun _ => false) (newMR (v_s v7)) (s_c (v_s v7)) 0 (s_br (v_s v7)) true (s_res (v_s v7)))
  (dwmr (v_cur v7) x7 d7) (v_mnt v7) (v_cur v7) (v_seq v7 + 1 + 1) (v_mask v7).
Definition t7 : list snap := [mayhap (s_wr (v_s v7)) (v_d v7); eq (dwrite (s_wr (v_s v7)) dk7 (v_d v7)); eq d7; eq (dwmr (v_cur v7) x7 d7); eq (dwmr (v_cur v7) x7 d7)].
Lemma u1_fail : execF0 CTransact oo oo v7 (Err EIO) u1 t7.
Proof.
  cbn [FltVolume.execF]. exists (Err EIO), u1, t7. split; [|auto].
  unfold FltVolume.RedCoreVolTransact, fguard. replace (v_mnt v7) with true by (vm_compute; reflexivity).
  replace (s_ro (v_s v7)) with false by (vm_compute; reflexivity). cbn [negb].
  split; [vm_compute; reflexivity|]. right. split; [vm_compute; reflexivity|]. split; [reflexivity|]. right. split; [vm_compute; reflexivity|].
  exists x7, (dwmr (v_cur v7) x7 d7). split; [right; left; reflexivity|]. split; [left; reflexivity|]. split; reflexivity.
Qed.
Definition u3 : vol := re u1.
Definition u4 : vol := after u3 (CCreate 2 B false).
Definition u5 : vol := after u4 (CWrite 3 0 (32 * 512) (fun _ => 77)).
Definition lostdev (v : vol) : dev := let d := dwrite (dirty v) (dk (v_s v)) (v_d v) in mkDev (d_blk d) (fun _ => false) (d_mrd d) (d_mrd d) (d_mstd d) (d_mstd d).
Lemma lostdev_ok v : mayhap (dirty v) (v_d v) (dwrite (dirty v) (dk (v_s v)) (v_d v)) /\ lose true (dwrite (dirty v) (dk (v_s v)) (v_d v)) (lostdev v).
Proof.
  split.
  - unfold mayhap, dwrite; cbn. repeat split; auto; rewrite H; auto.
  - unfold lose, lostdev, dwrite; cbn. repeat split; auto.
Qed.
Example unsettled_results :
  result u1 CUnmount = Ok OUnit /\ result (after u1 CUnmount) (CMount 0) = Ok OUnit /\ result u3 (CLookup 2 A) = Err ENOENT /\
  result u3 (CCreate 2 B false) = Ok (ONum 3) /\ result u4 (CWrite 3 0 (32 * 512) (fun _ => 77)) = Ok (ONum 16384).
Proof. vm_compute. repeat split; reflexivity. Qed.
Lemma shows_rd v X c : reads c = true -> legal c -> shows g0 true 1 2047 v X -> read_ok (NMAX g0) c X (result v c).
Proof. intros RC LG (_ & H). destruct (H c oo oo RC LG) as (r & t & E & R). unfold result, ex. rewrite E. exact R. Qed.
Lemma mounts_rd d X c : reads c = true -> legal c -> mounts g0 true 1 2047 0 d X -> read_ok (NMAX g0) c X (result (after (boot 0 d) (CMount 0)) c).
Proof.
  intros RC LG H. destruct (H 0 oo oo eq_refl) as (v & E & S & _). replace (after (boot 0 d) (CMount 0)) with v; [apply shows_rd; auto|].
  unfold after, ex. rewrite E. reflexivity.
Qed.
Lemma legalA : legal (CLookup 2 A). Proof. apply nozero_names; repeat (constructor; try discriminate). Qed.
Lemma lost_lookup : result (after (boot 0 (lostdev u5)) (CMount 0)) (CLookup 2 A) = Err ENOENT. Proof. vm_compute. reflexivity. Qed.
Lemma lost_read : rd (result (after (boot 0 (lostdev u5)) (CMount 0)) (CRead 3 505 10)) = Some (10, [77; 77; 77; 77; 77; 77; 77; 77; 77; 77]). Proof. vm_compute. reflexivity. Qed.
Lemma v7_lookup : result (after (boot 0 (lostdev v7)) (CMount 0)) (CLookup 2 A) = Ok (ONum 3). Proof. vm_compute. reflexivity. Qed.
Lemma v7_read : result v7 (CRead 3 505 10) = Err EBADF. Proof. vm_compute. reflexivity. Qed.
Lemma unsettled_gen dl d0 v W C : result (after (boot 0 dl) (CMount 0)) (CLookup 2 A) = Err ENOENT ->
  rd (result (after (boot 0 dl) (CMount 0)) (CRead 3 505 10)) = Some (10, [77; 77; 77; 77; 77; 77; 77; 77; 77; 77]) ->
  result (after (boot 0 d0) (CMount 0)) (CLookup 2 A) = Ok (ONum 3) -> result v (CRead 3 505 10) = Err EBADF ->
  shows g0 true 1 2047 v W -> mounts g0 true 1 2047 0 d0 C -> ~ exists X, leaves g0 W C (v_mask v) CTransact X /\ mounts g0 true 1 2047 0 dl X.
Proof.
  intros L1 LR L2 L3 SW MC (X & [->|[(_ & ->)|[(Q & _)|[(Q & _)|(Q & _)]]]] & HM); try discriminate.
  - pose proof (mounts_rd _ _ (CLookup 2 A) eq_refl legalA HM) as R1. rewrite L1 in R1.
    pose proof (mounts_rd _ _ (CLookup 2 A) eq_refl legalA MC) as R2. rewrite L2 in R2.
    cbn [read_ok] in R1, R2. unfold bad_dir, bad_name, no_entry in R1. destruct R1 as [[(Q & _)|(Q & _)]|[[(Q & _)|(Q & _)]|(_ & _ & R1)]]; try discriminate Q. exact (R1 3 R2).
  - pose proof (mounts_rd _ _ (CRead 3 505 10) eq_refl Logic.I HM) as R1.
    pose proof (shows_rd _ _ (CRead 3 505 10) eq_refl Logic.I SW) as R2. rewrite L3 in R2.
    cbn [read_ok] in R1, R2. destruct R2 as [(_ & R2)|(Q & _)]; [|discriminate Q].
    destruct (result (after (boot 0 dl) (CMount 0)) (CRead 3 505 10)) as [[]|]; try discriminate LR. destruct x as [n f].
    destruct R1 as (nl & sz & b & R1 & _). congruence.
Qed.
Definition lossof (v : vol) : dev := dwrite (dirty v) (dk (v_s v)) (v_d v).
Theorem C45_unsettled_refuted W C : shows g0 true 1 2047 v7 W -> durable g0 true 1 2047 0 v7 C ->
  exists d d', mayhap (dirty u5) (v_d u5) d /\ lose true d d' /\ ~ exists X, leaves g0 W C (v_mask v7) CTransact X /\ mounts g0 true 1 2047 0 d' X.
Proof.
  intros SW DC. exists (lossof u5), (lostdev u5). refine (conj (proj1 (lostdev_ok u5)) (conj (proj2 (lostdev_ok u5)) _)).
  exact (unsettled_gen (lostdev u5) (lostdev v7) v7 W C lost_lookup lost_read v7_lookup v7_read SW (DC _ _ (proj1 (lostdev_ok v7)) (proj2 (lostdev_ok v7)))).
Qed.
End Unsettled.
