(** Tasks whose FSE calls overlap: C47 is not vacuous; and why RedFseUninit is excluded. *)
From Verif Require Import Base FsState FsMach FsVolume FsReach Scenario FseSpec FseVol FseReach FseApi PropFseApi ScenarioFse FseConc PropFseConc.

Notation cstep0 := (cstep 2 (fun _ => g0) true 3 2047 0).
Notation csteps0 := (csteps 2 (fun _ => g0) true 3 2047 0).
Notation usteps0 := (usteps 2 (fun _ => g0) true 3 2047 0).
Definition wr := FWrite 4 0 3 (fun x => x + 7).
(** Volume 1 is formatted and mounted (y3).  Task 1 calls RedFseWrite on it, task 2 RedFseMount on volume 0, task 3 reads
    from volume 1; task 2 has the mutex. *)
Definition tr0 := [LInv 1 1 wr; LInv 2 0 FMount; LInv 3 1 (FSizeGet 4); LAcq 2 0 FMount].
Lemma y3_init : fy_init y3 = true. Proof. vm_compute. reflexivity. Qed.
Lemma overlap : exists x, csteps0 (idle y3 0) tr0 x /\ c_t x 1 = TWait 1 wr /\ c_t x 2 = THold 0 FMount /\ c_t x 3 = TWait 1 (FSizeGet 4) /\ c_lock x = Some 2 /\ c_y x = y3 /\ c_cur x = 0.
Proof.
  eexists. split.
  - change tr0 with ((((((((((([] ++ [LInv 1 1 wr]) ++ [LInv 2 0 FMount]) ++ [LInv 3 1 (FSizeGet 4)]) ++ []) ++ []) ++ []) ++ []) ++ []) ++ []) ++ [LAcq 2 0 FMount]) ++ []).
    eapply (Ks_step _ _ _ _ _ _ _ _ _ 2); [|apply K_cur with (n := 0) (c := FMount)].
    eapply (Ks_step _ _ _ _ _ _ _ _ _ 2); [|apply K_acq with (n := 0) (c := FMount)].
    eapply (Ks_step _ _ _ _ _ _ _ _ _ 3); [|apply K_check with (n := 1) (c := FSizeGet 4)].
    eapply (Ks_step _ _ _ _ _ _ _ _ _ 2); [|apply K_check with (n := 0) (c := FMount)].
    eapply (Ks_step _ _ _ _ _ _ _ _ _ 1); [|apply K_check with (n := 1) (c := wr)].
    eapply (Ks_step _ _ _ _ _ _ _ _ _ 3); [|apply K_pre with (n := 1) (c := FSizeGet 4)].
    eapply (Ks_step _ _ _ _ _ _ _ _ _ 2); [|apply K_pre with (n := 0) (c := FMount)].
    eapply (Ks_step _ _ _ _ _ _ _ _ _ 1); [|apply K_pre with (n := 1) (c := wr)].
    eapply (Ks_step _ _ _ _ _ _ _ _ _ 3); [|apply K_call].
    eapply (Ks_step _ _ _ _ _ _ _ _ _ 2); [|apply K_call].
    eapply (Ks_step _ _ _ _ _ _ _ _ _ 1); [|apply K_call].
    apply Ks_nil.
    all: first [reflexivity | exact y3_init].
  - repeat split.
Qed.
(** Task 2 can go on alone until it has returned. *)
Lemma can_mono y y' : y = y' -> can y' -> can y. Proof. now intros ->. Qed.
Lemma yafter_other y n c m : m <> n -> fy_vol (yafter y n c) m = fy_vol y m.
Proof.
  intros H. unfold yafter, yc, FseCall. destruct (toolong c); [reflexivity|]. destruct (negb (fy_init y)); [reflexivity|]. destruct (2 <=? n); [reflexivity|].
  destruct (fexec g0 true 3 2047 c oo oo (fy_vol y n)) as [[r v] t]. cbn. now rewrite upd_other.
Qed.
Lemma y3_can : can y3.
Proof.
  assert (V : forall n, n <> 1 -> fy_vol y3 n = boot 0 dev0).
  { intros n H. unfold y3, y2. rewrite !yafter_other by auto. reflexivity. }
  split.
  - intros n c. destruct c; cbn; auto. destruct (N.eq_dec n 1) as [->|H]; [left; vm_compute; reflexivity|right; rewrite (V n H); reflexivity].
  - intros n. destruct (N.eq_dec n 1) as [->|H]; [vm_compute; discriminate|rewrite (V n H); vm_compute; discriminate].
Qed.
Example C47_overlap : exists tr x, csteps0 (idle y3 0) (tr0 ++ tr) x /\ c_lock x = None /\ c_t x 2 = TIdle /\ c_t x 1 = TWait 1 wr /\ c_t x 3 = TWait 1 (FSizeGet 4) /\
  ysteps 2 (fun _ => g0) true 3 2047 0 y3 (ends (tr0 ++ tr)) (c_y x).
Proof.
  destruct overlap as (x & S & T1 & T2 & T3 & LK & EY & _). destruct (C47_released _ _ _ _ _ _ _ _ _ _ 2 S LK (can_mono _ _ EY y3_can)) as (tr & x' & S' & LK' & I2 & OT).
  pose proof (csteps_trans _ _ _ _ _ _ _ _ _ _ _ S S') as SS. exists tr, x'. split; auto. split; auto. split; auto. rewrite !OT by discriminate. split; auto. split; auto.
  apply (proj1 (C47_serial _ _ _ _ _ _ _ _ _ _ SS)).
Qed.

(** RedFseUninit while another task is between FseEnter's check and the mutex: the API is shut down, and then a volume is
    mounted.  By C47_shut no serial history ends like this: RedFseUninit is not safe next to other calls, because
    FseEnter checks gfFseInited before it has the mutex. *)
Lemma y2_facts : fy_init y2 = true /\ RedFseUninit 2 y2 = (Ok FUnit, mkFsys false (fy_vol y2)) /\ v_mnt (fy_vol y2 1) = false /\ v_seq (fy_vol y2 1) + 5 <= UINT64_MAX /\
  (exists v t, fbody true 3 2047 g0 FMount false oo oo (fy_vol y2 1) = (Ok FUnit, v, t) /\ v_mnt v = true).
Proof.
  assert (I : fy_init y2 = true) by (vm_compute; reflexivity). assert (A : any_mounted (N.to_nat 2) y2 = false) by (vm_compute; reflexivity).
  split; auto. split; [unfold RedFseUninit; rewrite I; cbn [negb]; rewrite A; reflexivity|]. split; [vm_compute; reflexivity|]. split; [vm_compute; discriminate|].
  destruct (fbody true 3 2047 g0 FMount false oo oo (fy_vol y2 1)) as [[r v] t] eqn:E. assert (Q : let q := fbody true 3 2047 g0 FMount false oo oo (fy_vol y2 1) in fst (fst q) = Ok FUnit /\ v_mnt (snd (fst q)) = true) by (vm_compute; auto).
  rewrite E in Q. cbn in Q. destruct Q as [-> Q]. eauto.
Qed.
Lemma race y v t : fy_init y = true -> RedFseUninit 2 y = (Ok FUnit, mkFsys false (fy_vol y)) -> v_mnt (fy_vol y 1) = false -> v_seq (fy_vol y 1) + 5 <= UINT64_MAX ->
  fbody true 3 2047 g0 FMount false oo oo (fy_vol y 1) = (Ok FUnit, v, t) -> v_mnt v = true ->
  exists tr x, usteps0 (idle y 0) tr x /\ at_rest x /\ fy_init (c_y x) = false /\ v_mnt (fy_vol (c_y x) 1) = true.
Proof.
  intros I U M RM B V.
  set (tr := ((((((((([] ++ [LInv 1 1 FMount]) ++ []) ++ []) ++ [LShut (Ok FUnit)]) ++ [LAcq 1 1 FMount]) ++ []) ++ []) ++ [LEnd 1 1 FMount (Ok FUnit)]) ++ []) ++ [LRet 1 1 FMount (Ok FUnit)]).
  exists tr. eexists. split.
  - unfold tr.
    eapply (Us_step _ _ _ _ _ _ _ _ _ 1); [|apply U_step, K_ret with (n := 1) (c := FMount) (r := Ok FUnit)].
    eapply (Us_step _ _ _ _ _ _ _ _ _ 1); [|apply U_step, K_leave with (n := 1) (c := FMount) (r := Ok FUnit)].
    eapply (Us_step _ _ _ _ _ _ _ _ _ 1); [|apply U_step, K_body with (n := 1) (c := FMount) (b := false) (o1 := oo) (o2 := oo) (r := Ok FUnit) (v := v) (t := t)].
    eapply (Us_step _ _ _ _ _ _ _ _ _ 1); [|apply U_step, K_look with (n := 1) (c := FMount)].
    eapply (Us_step _ _ _ _ _ _ _ _ _ 1); [|apply U_step, K_cur with (n := 1) (c := FMount)].
    eapply (Us_step _ _ _ _ _ _ _ _ _ 1); [|apply U_step, K_acq with (n := 1) (c := FMount)].
    eapply (Us_step _ _ _ _ _ _ _ _ _ 2); [|eapply U_uninit with (y' := mkFsys false (fy_vol y))].
    eapply (Us_step _ _ _ _ _ _ _ _ _ 1); [|apply U_step, K_check with (n := 1) (c := FMount)].
    eapply (Us_step _ _ _ _ _ _ _ _ _ 1); [|apply U_step, K_pre with (n := 1) (c := FMount)].
    eapply (Us_step _ _ _ _ _ _ _ _ _ 1); [|apply U_step, K_call].
    apply Us_nil.
    all: cbn [c_y c_cur c_lock c_t goto set_lock set_cur set_y idle]; try reflexivity; try exact I; try exact U.
    + left. split; [|reflexivity]. cbn. rewrite M. reflexivity.
    + unfold room, oo. cbn [fst fy_vol]. lia.
    + exact B.
  - split; [split; [reflexivity|]|split; [reflexivity|]].
    + intros u. cbn. unfold upd. destruct (N.eqb_spec u 1); reflexivity.
    + cbn. exact V.
Qed.
Theorem C47_uninit_refuted : exists tr x, usteps0 (idle y2 0) tr x /\ at_rest x /\ fy_init (c_y x) = false /\ v_mnt (fy_vol (c_y x) 1) = true.
Proof. destruct y2_facts as (I & U & M & RM & v & t & B & V). exact (race y2 v t I U M RM B V). Qed.
