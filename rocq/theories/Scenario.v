(** A concrete history, computed: the hypotheses of the theorems about reachable volumes can be met,
    and the conclusions can be observed. *)
From Verif Require Import Base Count FsState FsImap FsInode FsData FsInv FsDir FsCore FsSpec FsMach FsVolume FsVolumeP FsReach FsKeep PropFs PropVol.

Definition g0 : cfg := mkCfg 512 10 2 4 100 64 3 10 3 12 (fun b => match b with BData f => f | _ => fun _ => 0 end).
Lemma g0_ok : cfg_ok g0.
Proof. constructor; vm_compute; intros; auto; congruence. Qed.
(** Blank media, no automatic transactions, atomic sector writes. *)
Definition dev0 : dev := mkDev (fun _ => BJunk) (fun _ => false) (fun _ => MBad true) (fun _ => MBad true) None None.
Definition oo : oracle := (1, fun _ => BJunk).
Definition ex c v := exec g0 true 1 2047 c oo oo v.
Definition after v c := snd (fst (ex c v)).
Definition result v c := fst (fst (ex c v)).
Definition A := [65]. Definition B := [66; 67]. Definition D := [68].
Definition v0 := boot 0 dev0.
Definition v1 := after v0 CFormat.
Definition v2 := after v1 (CMount 0).
Definition v3 := after v2 (CCreate 2 A false).      (* inode 3 *)
Definition v4 := after v3 (CWrite 3 500 20 (fun x => x + 1)).
Definition v5 := after v4 CTransact.
Definition v6 := after v5 (CWrite 3 510 4 (fun _ => 99)).
Definition v7 := after v6 (CUnlink 2 A).
Definition v8 := after v7 CRollback.

Notation step0 := (step g0 true 1 2047 0).
Notation steps0 := (steps g0 true 1 2047 0).
Lemma call_step v c : legal c -> allowed v c -> v_seq v + 5 <= UINT64_MAX -> step0 v (Some (ECall c (result v c))) (after v c).
Proof.
  intros L Al R. unfold result, after, ex. destruct (exec g0 true 1 2047 c oo oo v) as [[r v'] t] eqn:E. cbn [fst snd].
  eapply S_call; eauto. unfold room, oo; cbn [fst]; lia.
Qed.
Lemma nozero_names nm : Forall (fun x => x <> 0) nm -> FsCoreP2.nozero nm.
Proof.
  intros H k Hk. unfold nbyte, nlen in *. rewrite Forall_forall in H. apply H. unfold nthN. apply nth_In. unfold lenN in Hk. lia.
Qed.
Ltac dostep := apply call_step; [cbn; repeat split; try exact I; apply nozero_names; repeat (constructor; try discriminate)|cbn; try exact I; try (vm_compute; auto; fail) |vm_compute; discriminate].
Ltac docall v c r := let H := fresh in assert (H : step0 v (Some (ECall c (result v c))) (after v c)) by dostep; 
  replace (result v c) with r in H by (vm_compute; reflexivity); exact H.

Lemma st1 : step0 v0 (Some (ECall CFormat (Ok OUnit))) v1. Proof. docall v0 CFormat (@Ok out OUnit). Qed.
Lemma st2 : step0 v1 (Some (ECall (CMount 0) (Ok OUnit))) v2. Proof. docall v1 (CMount 0) (@Ok out OUnit). Qed.
Lemma st3 : step0 v2 (Some (ECall (CCreate 2 A false) (Ok (ONum 3)))) v3. Proof. docall v2 (CCreate 2 A false) (@Ok out (ONum 3)). Qed.
Lemma st4 : step0 v3 (Some (ECall (CWrite 3 500 20 (fun x => x + 1)) (Ok (ONum 20)))) v4. Proof. docall v3 (CWrite 3 500 20 (fun x => x + 1)) (@Ok out (ONum 20)). Qed.
Lemma st5 : step0 v4 (Some (ECall CTransact (Ok OUnit))) v5. Proof. docall v4 CTransact (@Ok out OUnit). Qed.
Lemma st6 : step0 v5 (Some (ECall (CWrite 3 510 4 (fun _ => 99)) (Ok (ONum 4)))) v6. Proof. docall v5 (CWrite 3 510 4 (fun _ => 99)) (@Ok out (ONum 4)). Qed.
Lemma st7 : step0 v6 (Some (ECall (CUnlink 2 A) (Ok OUnit))) v7. Proof. docall v6 (CUnlink 2 A) (@Ok out OUnit). Qed.

Notation reach0 := (reach g0 true 1 2047 0).
Lemma reach0_0 : reach0 v0. Proof. exists [], dev0. split; [split; reflexivity|constructor]. Qed.
Lemma reach0_step v e v' : reach0 v -> step0 v (Some e) v' -> reach0 v'. Proof. apply reach_step. Qed.
Lemma reach1 : reach0 v1. Proof. eapply reach0_step; [exact reach0_0|exact st1]. Qed.
Lemma reach2 : reach0 v2. Proof. eapply reach0_step; [exact reach1|exact st2]. Qed.
Lemma reach3 : reach0 v3. Proof. eapply reach0_step; [exact reach2|exact st3]. Qed.
Lemma reach4 : reach0 v4. Proof. eapply reach0_step; [exact reach3|exact st4]. Qed.
Lemma reach5 : reach0 v5. Proof. eapply reach0_step; [exact reach4|exact st5]. Qed.
Lemma reach6 : reach0 v6. Proof. eapply reach0_step; [exact reach5|exact st6]. Qed.
Lemma reach7 : reach0 v7. Proof. eapply reach0_step; [exact reach6|exact st7]. Qed.

(** The write and the unlink after the transaction point write no metaroot. *)
Lemma nc57 : no_commit g0 true 1 2047 0 v5 [ECall (CWrite 3 510 4 (fun _ => 99)) (Ok (ONum 4)); ECall (CUnlink 2 A) (Ok OUnit)] v7.
Proof.
  assert (M : v_mask v5 = 0) by (vm_compute; reflexivity).
  eapply NC_call; [exact st6|vm_compute; reflexivity|intros [|]; vm_compute; reflexivity|].
  eapply NC_call; [exact st7|vm_compute; reflexivity|intros [|]; vm_compute; reflexivity|]. apply NC_nil.
Qed.

(** C01: after a power loss in [v7], where the file has been overwritten and deleted, it is there as
    at the transaction point.  C03: the same for rollback. *)
Example C01_instance : exists F x, shows g0 true 1 2047 v5 F /\ vstat g0 true 1 2047 v5 x /\ durable g0 true 1 2047 0 v7 F /\ durable_stat g0 true 1 2047 0 v7 x.
Proof.
  destruct (C01_power_loss g0 g0_ok true 1 2047 0 v4 CTransact OUnit v5 reach4 st5 (or_introl eq_refl)) as (F & x & S & V & H).
  exists F, x. split; auto. split; auto. apply (H _ _ nc57).
Qed.
Example C02_instance : s_c (v_s v7) = s_c (v_s v5) /\ kept v5 (v_d v7).
Proof. destruct (C02_committed_blocks g0 g0_ok true 1 2047 0 v5 _ v7 reach5 eq_refl nc57) as (E & K & _). auto. Qed.
Definition rd r := match r with Ok (ORead (n, f)) => Some (n, map (fun k => f (N.of_nat k)) (seq 0 (N.to_nat n))) | _ => None end.
Example C03_instance :
  rd (result v4 (CRead 3 505 10)) = Some (10, [6; 7; 8; 9; 10; 11; 12; 13; 14; 15]) /\
  rd (result v6 (CRead 3 505 10)) = Some (10, [6; 7; 8; 9; 10; 99; 99; 99; 99; 15]) /\
  result v7 (CLookup 2 A) = Err ENOENT /\
  result v8 (CLookup 2 A) = Ok (ONum 3) /\ rd (result v8 (CRead 3 505 10)) = Some (10, [6; 7; 8; 9; 10; 11; 12; 13; 14; 15]) /\
  result v5 CVolStat = Ok (OVStat (35, 8, false)) /\ result v7 CVolStat = Ok (OVStat (35, 9, false)) /\ result v8 CVolStat = Ok (OVStat (35, 8, false)).
Proof. vm_compute. repeat split; reflexivity. Qed.
(** C23: the read-only mount of that state. *)
Definition v9 := after (after v5 CUnmount) (CMount 1).
Example C23_instance : s_ro (v_s v9) = true /\ v_mnt v9 = true /\ result v9 (CUnlink 2 A) = Err EROFS /\ result v9 (CLookup 2 A) = Ok (ONum 3).
Proof. vm_compute. auto. Qed.
(** C34: with the event bit of write in the mask the write survives a power loss. *)
Definition v10 := after v4 (CMaskSet T_WRITE).
Definition v11 := after v10 (CWrite 3 510 4 (fun _ => 99)).
Example C34_instance : exists F, shows g0 true 1 2047 v11 F /\ durable g0 true 1 2047 0 v11 F.
Proof.
  assert (S10 : step0 v4 (Some (ECall (CMaskSet T_WRITE) (Ok OUnit))) v10) by docall v4 (CMaskSet T_WRITE) (@Ok out OUnit).
  assert (S11 : step0 v10 (Some (ECall (CWrite 3 510 4 (fun _ => 99)) (Ok (ONum 4)))) v11) by docall v10 (CWrite 3 510 4 (fun _ => 99)) (@Ok out (ONum 4)).
  apply (C34_commits g0 g0_ok true 1 2047 0 v10 (CWrite 3 510 4 (fun _ => 99)) (ONum 4)); auto. eapply reach0_step; [exact reach4|exact S10].
Qed.
