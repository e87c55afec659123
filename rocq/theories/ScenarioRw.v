(** Concrete histories for the theorems of PropRw.v. *)
From Verif Require Import Base Count FsState FsImap FsInode FsData FsInv FsWrite FsDir FsCore FsSpec FsMach FsVolume FsVolumeP FsReach FsKeep PropFs PropVol PropNs PropSpace PropFull PropRw Scenario ScenarioNs ScenarioFull.

(** Two directories (4, 5); two names in 4; then the volume is filled until one free block is left. *)
Definition e1 := after n1 (CCreate 2 B true).
Definition e2 := after e1 (CCreate 4 A false).
Definition e3 := after e2 (CCreate 4 B false).
Definition e4 := after e3 (CWrite 3 0 17000 src1).
Definition e5 := after e4 CTransact.
(** The rename needs two blocks: one for the new entry, one for a copy of the block with the old one.  The second
    allocation fails, and the new entry is removed again. *)
Definition e6 := after e5 (CRename 4 A 5 A).
Lemma se1 : step0 n1 (Some (ECall (CCreate 2 B true) (Ok (ONum 5)))) e1. Proof. docall' n1 (CCreate 2 B true) (@Ok out (ONum 5)). Qed.
Lemma se2 : step0 e1 (Some (ECall (CCreate 4 A false) (Ok (ONum 6)))) e2. Proof. docall' e1 (CCreate 4 A false) (@Ok out (ONum 6)). Qed.
Lemma se3 : step0 e2 (Some (ECall (CCreate 4 B false) (Ok (ONum 7)))) e3. Proof. docall' e2 (CCreate 4 B false) (@Ok out (ONum 7)). Qed.
Lemma se4 : step0 e3 (Some (ECall (CWrite 3 0 17000 src1) (Ok (ONum 17000)))) e4. Proof. docall' e3 (CWrite 3 0 17000 src1) (@Ok out (ONum 17000)). Qed.
Lemma se5 : step0 e4 (Some (ECall CTransact (Ok OUnit))) e5. Proof. docall' e4 CTransact (@Ok out OUnit). Qed.
Lemma se6 : step0 e5 (Some (ECall (CRename 4 A 5 A) (Err ENOSPC))) e6. Proof. docall' e5 (CRename 4 A 5 A) (@Err out ENOSPC). Qed.
Lemma reach_e5 : reach0 e5.
Proof.
  refine (reach0_step _ _ _ _ se5). refine (reach0_step _ _ _ _ se4). refine (reach0_step _ _ _ _ se3). refine (reach0_step _ _ _ _ se2).
  refine (reach0_step _ _ _ _ se1). exact (reach0_step _ _ _ reach3 sn1).
Qed.
Lemma writable_e5 : writable g0 true 1 2047 e5. Proof. do 2 eexists. vm_compute. reflexivity. Qed.
Example C41_rename_instance : unchanged g0 true 1 2047 e5 e6 /\ writable g0 true 1 2047 e6 /\
  found g0 true 1 2047 e6 4 A 6 /\ absent g0 true 1 2047 e6 5 A.
Proof.
  destruct (C41_rename g0 g0_ok true 1 2047 0 e5 4 A 5 A ENOSPC e6 reach_e5 writable_e5 se6) as (U & HW & _).
  split; auto. split; auto. split; vm_compute; reflexivity.
Qed.
(** It was not refused at once: directory 5 and its inode block had been modified. *)
Example C41_rename_halfway : s_br (v_s e5) = false /\ s_br (v_s e6) = true /\ s_wr (v_s e5) 60 = false /\ s_wr (v_s e6) 60 = true.
Proof. vm_compute. auto. Qed.
(** The history of these calls, from the mount. *)
Example C41_history_instance : writable g0 true 1 2047 v2 /\ writable g0 true 1 2047 e6.
Proof.
  assert (HW : writable g0 true 1 2047 v2) by (pose proof (C41_mount g0 g0_ok true 1 2047 0 v1 0 OUnit v2 reach1 st2) as H; exact H).
  split; auto. refine (proj1 (C41_history g0 g0_ok true 1 2047 0 v2 _ e6 _ reach2 HW _)).
  - refine (Ss_cons _ _ _ _ _ _ _ _ _ _ st3 _). refine (Ss_cons _ _ _ _ _ _ _ _ _ _ sn1 _). refine (Ss_cons _ _ _ _ _ _ _ _ _ _ se1 _).
    refine (Ss_cons _ _ _ _ _ _ _ _ _ _ se2 _). refine (Ss_cons _ _ _ _ _ _ _ _ _ _ se3 _). refine (Ss_cons _ _ _ _ _ _ _ _ _ _ se4 _).
    refine (Ss_cons _ _ _ _ _ _ _ _ _ _ se5 _). refine (Ss_cons _ _ _ _ _ _ _ _ _ _ se6 _). apply Ss_nil.
  - repeat constructor.
Qed.
