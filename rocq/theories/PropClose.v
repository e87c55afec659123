(** RedBDevClose may fail in RedCoreVolUnmount after RedBufferDiscardRange: the volume then stays mounted and writable, but
    its dirty buffers are gone.  FsVolume.v and FltVolume.v do not include this failure; here it is added as one step, and without a transaction point on
    unmounting a later one, which reports success, destroys a file that had been committed before. *)
From Verif Require Import Base Count FsState FsImap FsInode FsData FsInv FsSeek FsStep FsDir FsCore FsSpec FsMach FsVolume FsVolumeG FsVolumeP FsReach FsKeep PropFs PropVol Scenario.

Open Scope pv_scope.

(** core.c:323-350 RedCoreVolUnmount where RedBDevClose (core.c:341) fails: the transaction point if the mask has it, all
    buffers discarded (their contents are those of the device again), fMounted unchanged. *)
Definition discard (v : vol) : vol :=
  let s := v_s v in vset_s (mkSt (d_blk (v_d v)) (fun _ => false) (s_w s) (s_c s) (s_afree s) (s_br s) (s_ro s) (s_res s)) v.
Definition UnmountCloseFails (o : oracle) : PV unit := fun v =>
  ((if negb (s_ro (v_s v)) && has (v_mask v) T_UMOUNT then RedVolTransact o else pret tt) ~;; pmod discard ~;; pfail EIO) v.

(** With automatic transaction points on unmounting (the default), the failure is harmless: the volume is then exactly as after
    a transaction point (every block has the same logical contents, and no buffer is dirty). *)
Section Harmless.
Context (g : cfg) (OK : cfg_ok g) (atom : bool) (MM TM TD : N).
Theorem C45_close_harmless v o1 o2 : reach g atom MM TM TD v -> v_mnt v = true -> s_ro (v_s v) = false -> has (v_mask v) T_UMOUNT = true -> room v o1 o2 ->
  exists v' t, exec g atom MM TM CTransact o1 o2 v = (Ok OUnit, v', t) /\
    UnmountCloseFails o1 v = (Err EIO, discard v', t) /\
    (forall b, dk (v_s (discard v')) b = dk (v_s v') b) /\ (forall b, s_wr (v_s v') b = false).
Proof.
  intros R MN RO MK RM. destruct (reach_mnt g OK atom MM TM TD v R MN) as (W & C & (HV & _)).
  destruct (transact_ok g OK atom v W C o1 (fun _ => True) HV ltac:(unfold room in RM; lia) Logic.I Logic.I) as (v0 & t0 & R0 & (C1 & D1 & X) & _ & _ & _ & _ & _ & BR & _).
  destruct (FSV_Idle g OK _ _ _ _ (x_w _ _ _ _ _ _ _ X)) as [pm K]. destruct (k_br K BR) as (_ & _ & Y). cbn in Y.
  exists v0, t0. split; [|split; [|split; auto]].
  - cbn [FsVolume.exec]. unfold ounit, omap, RedCoreVolTransact, guard. unfold pbind. rewrite MN, RO. cbn [negb]. rewrite R0. cbv beta iota delta [pret]. rewrite app_nil_r. reflexivity.
  - unfold UnmountCloseFails. rewrite RO, MK. cbn [negb andb]. unfold pbind. rewrite R0. cbv beta iota delta [pmod pfail]. rewrite !app_nil_r. reflexivity.
  - intros b. cbn. symmetry. apply X. apply Y.
Qed.
End Harmless.

(** A file, committed (v5 of Scenario.v); no automatic transaction points; four bytes are changed; unmounting fails. *)
Definition u1 := after v5 (CMaskSet 0).
Definition u2 := after u1 (CWrite 3 510 4 (fun _ => 99)).
Definition u3 := snd (fst (UnmountCloseFails oo u2)).
Definition u4 := after u3 CTransact.
(** Then the power is lost, or not, and the volume is mounted again. *)
Definition u5 := after (boot 0 (v_d u4)) (CMount 0).
Definition read20 v := rd (result v (CRead 3 500 20)).

(** Unmounting fails with RED_EIO and leaves the volume mounted and writable; the next transaction point succeeds, and the
    20 bytes that were committed (and could still be read before the failed call) cannot be read any more, neither now nor
    after mounting again. *)
Theorem C45_close_refuted :
  read20 v5 = Some (20, [1; 2; 3; 4; 5; 6; 7; 8; 9; 10; 11; 12; 13; 14; 15; 16; 17; 18; 19; 20]) /\
  read20 u2 = Some (20, [1; 2; 3; 4; 5; 6; 7; 8; 9; 10; 99; 99; 99; 99; 15; 16; 17; 18; 19; 20]) /\
  fst (fst (UnmountCloseFails oo u2)) = Err EIO /\ v_mnt u3 = true /\ s_ro (v_s u3) = false /\
  result u3 CTransact = Ok OUnit /\ read20 u4 = None /\
  result (boot 0 (v_d u4)) (CMount 0) = Ok OUnit /\ result u5 (CLookup 2 A) = Ok (ONum 3) /\ read20 u5 = None.
Proof. vm_compute. repeat split. Qed.
(** The state before is reachable (and with it u2), so this is not an artefact of a damaged volume. *)
Lemma u1_step : step0 v5 (Some (ECall (CMaskSet 0) (Ok OUnit))) u1. Proof. docall v5 (CMaskSet 0) (@Ok out OUnit). Qed.
Lemma u2_step : step0 u1 (Some (ECall (CWrite 3 510 4 (fun _ => 99)) (Ok (ONum 4)))) u2. Proof. docall u1 (CWrite 3 510 4 (fun _ => 99)) (@Ok out (ONum 4)). Qed.
Lemma u2_reach : reach0 u2.
Proof.
  eapply reach0_step; [|exact u2_step]. eapply reach0_step; [|exact u1_step]. eapply reach0_step; [|exact st5].
  eapply reach0_step; [|exact st4]. eapply reach0_step; [|exact st3]. eapply reach0_step; [|exact st2]. eapply reach0_step; [|exact st1]. exact reach0_0.
Qed.
