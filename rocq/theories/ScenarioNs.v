(** Concrete histories for the theorems of PropNs.v. *)
From Verif Require Import Base Count FsState FsImap FsInode FsData FsInv FsDir FsCore FsSpec FsMach FsVolume FsVolumeP FsReach FsKeep PropFs PropVol PropNs Scenario.

Lemma call_step' v c : legal c -> allowed v c -> v_seq v + 5 <= UINT64_MAX -> s_ro (v_s (after v c)) = s_ro (v_s v) -> step0 v (Some (ECall c (result v c))) (after v c).
Proof.
  intros L Al R RN. unfold result, after, ex in *. destruct (exec g0 true 1 2047 c oo oo v) as [[r v'] t] eqn:E. cbn [fst snd] in *.
  eapply S_call; eauto. unfold room, oo; cbn [fst]; lia.
Qed.
Ltac dostep' := apply call_step'; [cbn; repeat split; try exact I; apply nozero_names; repeat (constructor; try discriminate)|cbn; try exact I; try (vm_compute; auto; fail) |vm_compute; discriminate|vm_compute; reflexivity].
Ltac docall' v c r := let H := fresh in assert (H : step0 v (Some (ECall c (result v c))) (after v c)) by dostep'; 
  replace (result v c) with r in H by (vm_compute; reflexivity); exact H.

(** File contents: from [v4] (20 bytes written at 500), cut to 505, then extended to 515. *)
Definition w1 := after v4 (CTruncate 3 505).
Definition w2 := after w1 (CTruncate 3 515).
Definition w3 := after w2 (CWrite 3 510 2 (fun _ => 7)).
Lemma sw1 : step0 v4 (Some (ECall (CTruncate 3 505) (Ok OUnit))) w1. Proof. docall' v4 (CTruncate 3 505) (@Ok out OUnit). Qed.
Lemma sw2 : step0 w1 (Some (ECall (CTruncate 3 515) (Ok OUnit))) w2. Proof. docall' w1 (CTruncate 3 515) (@Ok out OUnit). Qed.
Lemma sw3 : step0 w2 (Some (ECall (CWrite 3 510 2 (fun _ => 7)) (Ok (ONum 2)))) w3. Proof. docall' w2 (CWrite 3 510 2 (fun _ => 7)) (@Ok out (ONum 2)). Qed.
Notation isf := (is_file g0 true 1 2047).
Ltac isfile := do 3 eexists; vm_compute; reflexivity.
Definition tw := [ECall (CTruncate 3 515) (Ok OUnit); ECall (CWrite 3 510 2 (fun _ => 7)) (Ok (ONum 2))].
Lemma wk13 : worked g0 true 1 2047 0 (fun u => isf u 3) w1 tw w3.
Proof.
  eapply Wk_call; [vm_compute; reflexivity|isfile|discriminate|discriminate|exact sw2|].
  eapply Wk_call; [vm_compute; reflexivity|isfile|discriminate|discriminate|exact sw3|]. apply Wk_nil; [vm_compute; reflexivity|isfile].
Qed.
Example C17_instance : exists b, content g0 true 1 2047 w3 3 515 b /\ b 507 = 0 /\ b 510 = 7 /\ b 504 = 5 /\ b 3 = 0.
Proof.
  assert (R1 : reach0 w1) by (eapply reach0_step; [exact reach4|exact sw1]).
  assert (R3 : reach0 w3) by (eapply reach0_step; [eapply reach0_step; [exact R1|exact sw2]|exact sw3]).
  destruct (C16_create g0 g0_ok true 1 2047 0 v2 2 A 3 v3 reach2 st3) as (_ & H0).
  destruct (C16_write g0 g0_ok true 1 2047 0 v3 3 500 20 (fun x => x + 1) (ONum 20) v4 0 (fun _ => 0) reach3 st4 H0) as (n & E & _ & _ & _ & H1). injection E as <-.
  pose proof (C17_truncate g0 g0_ok true 1 2047 0 v4 3 505 OUnit w1 _ _ reach4 sw1 H1) as H2.
  pose proof (C16_history g0 g0_ok true 1 2047 0 3 _ _ _ wk13 R1 _ _ H2) as H3.
  eexists. split; [exact H3|]. split; [|vm_compute; auto].
  refine (C17_extension g0 g0_ok true 1 2047 0 v4 3 505 OUnit w1 tw w3 _ _ 507 reach4 _ sw1 wk13 _ _ H3 _); [isfile|discriminate| |vm_compute; reflexivity].
  intros e [<-|[<-|[]]]; cbn; lia.
Qed.

(** Names: two directories, a file with two names, a rename between directories, a delete. *)
Definition n1 := after v3 (CCreate 2 D true).          (* inode 4 *)
Definition n2 := after n1 (CCreate 4 D true).          (* inode 5 *)
Definition n3 := after n2 (CLink 5 B 3).
Definition n4 := after n3 (CRename 2 A 4 A).
Definition n5 := after n4 (CUnlink 5 B).
Definition n6 := after n5 (CRename 2 D 5 A).           (* into its own subdirectory *)
Lemma sn1 : step0 v3 (Some (ECall (CCreate 2 D true) (Ok (ONum 4)))) n1. Proof. docall' v3 (CCreate 2 D true) (@Ok out (ONum 4)). Qed.
Lemma sn2 : step0 n1 (Some (ECall (CCreate 4 D true) (Ok (ONum 5)))) n2. Proof. docall' n1 (CCreate 4 D true) (@Ok out (ONum 5)). Qed.
Lemma sn3 : step0 n2 (Some (ECall (CLink 5 B 3) (Ok OUnit))) n3. Proof. docall' n2 (CLink 5 B 3) (@Ok out OUnit). Qed.
Lemma sn4 : step0 n3 (Some (ECall (CRename 2 A 4 A) (Ok OUnit))) n4. Proof. docall' n3 (CRename 2 A 4 A) (@Ok out OUnit). Qed.
Lemma sn5 : step0 n4 (Some (ECall (CUnlink 5 B) (Ok OUnit))) n5. Proof. docall' n4 (CUnlink 5 B) (@Ok out OUnit). Qed.
Lemma sn6 : step0 n5 (Some (ECall (CRename 2 D 5 A) (Err EINVAL))) n6. Proof. docall' n5 (CRename 2 D 5 A) (@Err out EINVAL). Qed.
Definition tn := [ECall (CCreate 2 A false) (Ok (ONum 3)); ECall (CCreate 2 D true) (Ok (ONum 4)); ECall (CCreate 4 D true) (Ok (ONum 5)); ECall (CLink 5 B 3) (Ok OUnit);
  ECall (CRename 2 A 4 A) (Ok OUnit); ECall (CUnlink 5 B) (Ok OUnit)].
Lemma wkn : worked g0 true 1 2047 0 (fun _ => True) v2 tn n5.
Proof.
  eapply Wk_call; [vm_compute; reflexivity|exact I|discriminate|discriminate|exact st3|].
  eapply Wk_call; [vm_compute; reflexivity|exact I|discriminate|discriminate|exact sn1|].
  eapply Wk_call; [vm_compute; reflexivity|exact I|discriminate|discriminate|exact sn2|].
  eapply Wk_call; [vm_compute; reflexivity|exact I|discriminate|discriminate|exact sn3|].
  eapply Wk_call; [vm_compute; reflexivity|exact I|discriminate|discriminate|exact sn4|].
  eapply Wk_call; [vm_compute; reflexivity|exact I|discriminate|discriminate|exact sn5|].
  apply Wk_nil; [vm_compute; reflexivity|exact I].
Qed.
Lemma reach_n5 : reach0 n5. Proof. apply (worked_reach g0 true 1 2047 0 _ _ _ _ wkn). exact reach2. Qed.
Example C19_instance : forall p nm i, FsCoreP2.nozero nm -> found g0 true 1 2047 n5 p nm i <-> names tn (fun _ => None) (p, nm) = Some i.
Proof.
  apply (C19_history g0 g0_ok true 1 2047 0 _ _ _ wkn reach2). apply (C19_empty g0 g0_ok true 1 2047 0 v0 v1 0 v2 reach0_0 st1 st2).
Qed.
Example C19_instance_values : names tn (fun _ => None) (2, D) = Some 4 /\ names tn (fun _ => None) (4, D) = Some 5 /\ names tn (fun _ => None) (4, A) = Some 3 /\
  names tn (fun _ => None) (2, A) = None /\ names tn (fun _ => None) (5, B) = None.
Proof. vm_compute. auto. Qed.
Example C20_instance : walk g0 true 1 2047 n5 4 0 [(D, 5); (A, 3)] /\ walk g0 true 1 2047 n5 2 0 [(D, 4)].
Proof.
  split; repeat (eapply W_next; [vm_compute; reflexivity|]); eapply W_end; vm_compute; reflexivity.
Qed.
Example C21_instance : climbs g0 true 1 2047 n5 4 5 /\ unchanged g0 true 1 2047 n5 n6.
Proof.
  assert (CL : climbs g0 true 1 2047 n5 4 5) by (eapply C_up; [vm_compute; reflexivity|constructor]). split; auto.
  apply (C21_rename g0 g0_ok true 1 2047 0 n5 2 D 5 A 4 (Err EINVAL) n6 reach_n5); auto; try (vm_compute; reflexivity); [do 3 eexists; vm_compute; reflexivity|exact sn6].
Qed.
Example C22_instance : exists sz bl, ask g0 true 1 2047 n3 (CStat 3) = Ok (OStat (false, 2, sz, bl)) /\ at_pos g0 true 1 2047 n3 2 0 A 3 /\ at_pos g0 true 1 2047 n3 5 0 B 3.
Proof. do 2 eexists. vm_compute. auto. Qed.
