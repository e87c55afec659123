(** Two tasks whose calls overlap: C38 is not vacuous. *)
From Verif Require Import Base Count FsState FsDir FsSpec FsMach FsVolume FsReach Posix PosixWp PosixPath2 PosixInv PosixReach PosixKeep PosixConc PosixConcP PropConc Scenario ScenarioPosix.
From Coq Require Import ZArith.
Ltac Zify.zify_post_hook ::= idtac.

Definition sA := fst p3.      (* formatted and mounted; task 1 is registered, task 2 is not *)
Definition eA := snd p3.
Lemma A_reach : preach pc0 (sA, eA).
Proof. unfold sA, eA. rewrite <- surjective_pairing. eapply preach_step; [|exact s3]. eapply preach_step; [|exact s2]. apply init_reach, p0_reach. reflexivity. Qed.
Lemma A_init : p_init sA = true. Proof. vm_compute. reflexivity. Qed.

(** Tasks 1 and 2 are both in red_mkdir("/d"), and a third call of task 3 is rejected for its arguments; task 2, which
    called later, acquires the mutex first. *)
Definition cd := PMkdir str_d.
Definition crd := PRead 5 2147483648.
Definition tr0 := [LInv 1 cd; LInv 2 cd; LInv 3 crd; LAcq 2 cd].
Lemma overlap : exists x, csteps pc0 (idle sA eA) tr0 x /\ c_t x 1 = TWait cd /\ c_t x 2 = TReg cd /\ c_t x 3 = TLook crd EINVAL /\ c_lock x = Some 2.
Proof.
  eexists. split.
  - change tr0 with (([] ++ [LInv 1 cd]) ++ [LInv 2 cd] ++ [LInv 3 crd; LAcq 2 cd]).
    change (([] ++ [LInv 1 cd]) ++ [LInv 2 cd] ++ [LInv 3 crd; LAcq 2 cd]) with (((((((((([] ++ [LInv 1 cd]) ++ [LInv 2 cd]) ++ [LInv 3 crd]) ++ []) ++ []) ++ []) ++ []) ++ []) ++ []) ++ [LAcq 2 cd]).
    eapply (Ks_step _ _ _ _ 2); [|discriminate|apply K_acq with (c := cd)].
    eapply (Ks_step _ _ _ _ 3); [|discriminate|apply K_err with (c := crd) (e := EINVAL)].
    eapply (Ks_step _ _ _ _ 3); [|discriminate|apply K_pre with (c := crd)].
    eapply (Ks_step _ _ _ _ 2); [|discriminate|apply K_check with (c := cd)].
    eapply (Ks_step _ _ _ _ 1); [|discriminate|apply K_check with (c := cd)].
    eapply (Ks_step _ _ _ _ 2); [|discriminate|apply K_pre with (c := cd)].
    eapply (Ks_step _ _ _ _ 1); [|discriminate|apply K_pre with (c := cd)].
    eapply (Ks_step _ _ _ _ 3); [|discriminate|apply K_call].
    eapply (Ks_step _ _ _ _ 2); [|discriminate|apply K_call].
    eapply (Ks_step _ _ _ _ 1); [|discriminate|apply K_call].
    apply Ks_nil.
    all: first [reflexivity | exact A_init].
  - repeat split.
Qed.
(** These calls can be completed, and in the equivalent serial run task 2 comes before task 1. *)
Example C38_overlap : exists tr x l, csteps pc0 (idle sA eA) (tr0 ++ tr) x /\ at_rest x /\ called (ends (tr0 ++ tr)) = (2, cd) :: l /\
  exists e', serial pc0 (sA, eA) (ends (tr0 ++ tr)) (c_s x, e').
Proof.
  destruct overlap as (x & ST & _). destruct (C38_released pc0 pc0_ok _ _ _ _ A_reach A_init ST) as (_ & _ & tr & x' & ST' & AR).
  pose proof (csteps_trans pc0 _ _ _ _ _ ST ST') as S2. destruct (C38_serial pc0 pc0_ok _ _ _ _ A_reach A_init S2 AR) as (e' & SR & _ & AC & _).
  exists tr, x', (acqs tr). split; auto. split; auto. split; [|eauto]. rewrite <- AC. reflexivity.
Qed.
(** That serial run: the first mkdir succeeds, the second one fails. *)
Example C38_results : exists e1 e2 x1 x2, api pc0 2 cd (sA, eA) = (Ok RUnit, (x1, e1)) /\ api pc0 1 cd (x1, e1) = (Err EEXIST, (x2, e2)) /\ e_task e2 0 = Some EEXIST.
Proof.
  destruct (api pc0 2 cd (sA, eA)) as [r [x1 e1]] eqn:E1. destruct (api pc0 1 cd (x1, e1)) as [r2 [x2 e2]] eqn:E2. exists e1, e2, x1, x2.
  assert (Q : fst (api pc0 2 cd (sA, eA)) = Ok RUnit) by (vm_compute; reflexivity).
  assert (Q2 : let y := api pc0 1 cd (snd (api pc0 2 cd (sA, eA))) in fst y = Err EEXIST /\ e_task (snd (snd y)) 0 = Some EEXIST) by (vm_compute; auto).
  rewrite E1 in Q, Q2. cbn [fst snd] in Q, Q2. rewrite E2 in Q2. cbn [fst snd] in Q2. destruct Q2 as [-> Q2]. subst r. auto.
Qed.
