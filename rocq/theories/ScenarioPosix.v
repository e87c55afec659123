(** A concrete history of two tasks on two volumes: the hypotheses of the theorems about the POSIX-like
    API can be met, and the conclusions can be observed. *)
From Verif Require Import Base Count FsState FsDir FsSpec FsSpecN FsCoreP2 FsMach FsVolume FsVolumeP FsReach PropFs PropNs Posix PosixSpec PosixWp PosixPath PosixPath2 PosixInv PosixStart PosixCalls PosixCalls2 PosixCalls3 PosixCalls4 PosixCalls5 PosixCalls6 PosixCalls7 PosixReach PosixSame PropPosix PropPosix2 PropPosix3 Scenario.
From Coq Require Import ZArith.

(** Volumes "" and "V" (or, for [pcA], "" and "/a"); separator '/'; 3 handles; 2 tasks. *)
Definition pc0 : pcfg := mkPC 2 (fun _ => g0) (fun n => if n =? 0 then [] else [86]) 47 3 2 (fun _ => true) 1 2047 0.
Definition pcA : pcfg := mkPC 2 (fun _ => g0) (fun n => if n =? 0 then [] else [47; 97]) 47 3 2 (fun _ => true) 1 2047 0.
Lemma two n : n < 2 -> n = 0 \/ n = 1. Proof. lia. Qed.
Lemma pc0_ok : pcfg_ok pc0.
Proof.
  constructor; try (cbn; lia); try (intros; exact g0_ok); try discriminate.
  - intros n Hn. apply nozero_names. destruct (two n Hn) as [-> | ->]; cbn; repeat constructor; discriminate.
  - intros m n Hm Hn. destruct (two m Hm) as [-> | ->], (two n Hn) as [-> | ->]; intros X; try reflexivity; discriminate X.
Qed.
Lemma pcA_ok : pcfg_ok pcA.
Proof.
  constructor; try (cbn; lia); try (intros; exact g0_ok); try discriminate.
  - intros n Hn. apply nozero_names. destruct (two n Hn) as [-> | ->]; cbn; repeat constructor; discriminate.
  - intros m n Hm Hn. destruct (two m Hm) as [-> | ->], (two n Hn) as [-> | ->]; intros X; try reflexivity; discriminate X.
Qed.
Lemma pc0_nosep : nosep pc0.
Proof. intros n Hn. destruct (two n Hn) as [-> | ->]; cbn; [tauto|intros [X|[]]; discriminate]. Qed.

Notation sys := (pst * est)%type.
Definition p0 : sys := (mkP false (fun _ => mkH 0 0 false false false false 0) (fun _ => mkT 0 0 2) (fun _ => 0) (fun _ => boot 0 dev0) 0 (fun _ => (oo, oo)) true, mkE (fun _ => None) None).
Definition run (pc : pcfg) tid c (x : sys) : sys := snd (api pc tid c x).
Definition res_of (pc : pcfg) tid c (x : sys) := fst (api pc tid c x).
Definition init (pc : pcfg) (x : sys) : sys := snd (red_init pc x).
Lemma p0_reach pc : TDEF pc = 0 -> preach pc p0.
Proof. intros E. exists p0, []. split; [|constructor]. split; [reflexivity|]. split; [reflexivity|]. split; [reflexivity|]. intros n _. exists dev0. split; [split; reflexivity|]. cbn. now rewrite E. Qed.
Lemma init_reach pc x : preach pc x -> preach pc (init pc x).
Proof. intros R. eapply preach_step; [exact R|]. unfold init. destruct (red_init pc x) as [r x'] eqn:E. eapply PS_init. exact E. Qed.
Lemma run_step pc tid c x : tid <> 0 -> fdok c -> p_ok (fst (run pc tid c x)) = true -> pstep pc x (EvCall tid c (res_of pc tid c x)) (run pc tid c x).
Proof. intros NZ FD OK. unfold run, res_of in *. destruct (api pc tid c x) as [r x'] eqn:E. cbn [fst snd] in *. now apply PS_call. Qed.

Definition str_d : str := [47; 100].                    (* "/d" *)
Definition str_df : str := [47; 100; 47; 102].          (* "/d/f" *)
Definition p1 := init pc0 p0.
Definition p2 := run pc0 1 (PFormat []) p1.
Definition p3 := run pc0 1 (PMount [] 0) p2.
Definition p4 := run pc0 1 (PMkdir str_d) p3.
Definition p5 := run pc0 1 (POpen str_df 20) p4.        (* O_RDWR | O_CREAT *)
Definition fd5 : Z := match res_of pc0 1 (POpen str_df 20) p4 with Ok (RFd f) => f | _ => 0%Z end.
Definition p6 := run pc0 1 (PWrite fd5 5 (fun k => 65 + k)) p5.
Definition p7 := run pc0 2 (PChdir [100]) p6.           (* task 2: "d" *)
Definition p8 := run pc0 2 (PUnlink [102]) p7.          (* "f": busy, open *)
Definition p9 := run pc0 1 (PRmdir str_d) p8.           (* busy, working directory of task 2 *)
Definition p10 := run pc0 1 (PLseek fd5 (-3) SEEK_CUR) p9.
Definition p11 := run pc0 1 (PRead fd5 100) p10.
Definition p12 := run pc0 2 (PUmount [47] 0) p11.       (* busy, open *)
Definition p13 := run pc0 2 (PUmount [47] 1) p12.       (* forced *)
Definition p14 := run pc0 1 (PMount [] 0) p13.
Definition p15 := run pc0 1 (PRead fd5 100) p14.        (* stale *)
Definition p16 := run pc0 3 (PMkdir str_df) p15.        (* no slot *)

Ltac pstep_tac := match goal with |- pstep ?pc ?x (EvCall ?tid ?c ?r) _ => 
  let H := fresh in assert (H : pstep pc x (EvCall tid c (res_of pc tid c x)) (run pc tid c x)) by (apply run_step; [discriminate|vm_compute; auto|vm_compute; reflexivity]);
  replace (res_of pc tid c x) with r in H by (vm_compute; reflexivity); exact H end.
Notation ev tid c r := (EvCall tid c r).
Lemma s2 : pstep pc0 p1 (ev 1 (PFormat []) (Ok RUnit)) p2. Proof. pstep_tac. Qed.
Lemma s3 : pstep pc0 p2 (ev 1 (PMount [] 0) (Ok RUnit)) p3. Proof. pstep_tac. Qed.
Lemma s4 : pstep pc0 p3 (ev 1 (PMkdir str_d) (Ok RUnit)) p4. Proof. pstep_tac. Qed.
Lemma s5 : pstep pc0 p4 (ev 1 (POpen str_df 20) (Ok (RFd 1048576))) p5. Proof. pstep_tac. Qed.
Lemma s6 : pstep pc0 p5 (ev 1 (PWrite fd5 5 (fun k => 65 + k)) (Ok (RNum 5))) p6. Proof. pstep_tac. Qed.
Lemma s7 : pstep pc0 p6 (ev 2 (PChdir [100]) (Ok RUnit)) p7. Proof. pstep_tac. Qed.
Lemma s8 : pstep pc0 p7 (ev 2 (PUnlink [102]) (Err EBUSY)) p8. Proof. pstep_tac. Qed.
Lemma s9 : pstep pc0 p8 (ev 1 (PRmdir str_d) (Err EBUSY)) p9. Proof. pstep_tac. Qed.
Lemma s10 : pstep pc0 p9 (ev 1 (PLseek fd5 (-3) SEEK_CUR) (Ok (ROff 2))) p10. Proof. pstep_tac. Qed.
Lemma s11 : exists f, pstep pc0 p10 (ev 1 (PRead fd5 100) (Ok (RBytes 3 f))) p11 /\ f 0 = 67 /\ f 2 = 69.
Proof.
  destruct (res_of pc0 1 (PRead fd5 100) p10) as [[]|] eqn:E; try (vm_compute in E; discriminate). assert (n = 3) as -> by (vm_compute in E; congruence).
  exists f. rewrite <- E. split; [apply run_step; [discriminate|vm_compute; auto|vm_compute; reflexivity]|]. 
  assert (X : match res_of pc0 1 (PRead fd5 100) p10 with Ok (RBytes _ f) => f 0 = 67 /\ f 2 = 69 | _ => False end) by (vm_compute; auto). rewrite E in X. exact X.
Qed.

Lemma s12 : pstep pc0 p11 (ev 2 (PUmount [47] 0) (Err EBUSY)) p12. Proof. pstep_tac. Qed.
Lemma s13 : pstep pc0 p12 (ev 2 (PUmount [47] 1) (Ok RUnit)) p13. Proof. pstep_tac. Qed.
Lemma s14 : pstep pc0 p13 (ev 1 (PMount [] 0) (Ok RUnit)) p14. Proof. pstep_tac. Qed.
Lemma s15 : pstep pc0 p14 (ev 1 (PRead fd5 100) (Err EBADF)) p15. Proof. pstep_tac. Qed.
Lemma s16 : pstep pc0 p15 (ev 3 (PMkdir str_df) (Err EUSERS)) p16. Proof. pstep_tac. Qed.
Lemma r1 : preach pc0 p1. Proof. apply init_reach, p0_reach. reflexivity. Qed.
Lemma r2 : preach pc0 p2. Proof. eapply preach_step; [exact r1|exact s2]. Qed.
Lemma r3 : preach pc0 p3. Proof. eapply preach_step; [exact r2|exact s3]. Qed.
Lemma r4 : preach pc0 p4. Proof. eapply preach_step; [exact r3|exact s4]. Qed.
Lemma r5 : preach pc0 p5. Proof. eapply preach_step; [exact r4|exact s5]. Qed.
Lemma r6 : preach pc0 p6. Proof. eapply preach_step; [exact r5|exact s6]. Qed.
Lemma r7 : preach pc0 p7. Proof. eapply preach_step; [exact r6|exact s7]. Qed.
Lemma r8 : preach pc0 p8. Proof. eapply preach_step; [exact r7|exact s8]. Qed.
Lemma r9 : preach pc0 p9. Proof. eapply preach_step; [exact r8|exact s9]. Qed.
Lemma r10 : preach pc0 p10. Proof. eapply preach_step; [exact r9|exact s10]. Qed.
Lemma r11 : preach pc0 p11. Proof. destruct s11 as (f & X & _). eapply preach_step; [exact r10|exact X]. Qed.
Lemma r12 : preach pc0 p12. Proof. eapply preach_step; [exact r11|exact s12]. Qed.
Lemma r13 : preach pc0 p13. Proof. eapply preach_step; [exact r12|exact s13]. Qed.
Lemma r14 : preach pc0 p14. Proof. eapply preach_step; [exact r13|exact s14]. Qed.
Lemma r15 : preach pc0 p15. Proof. eapply preach_step; [exact r14|exact s15]. Qed.
Ltac ready_tac k := split; [vm_compute; reflexivity|split; [discriminate|exists k; split; [reflexivity|vm_compute; reflexivity]]].
Lemma y4 : ready pc0 1 p4. Proof. ready_tac 0. Qed.
Lemma y5 : ready pc0 1 p5. Proof. ready_tac 0. Qed.
Lemma y7 : ready pc0 2 p7. Proof. ready_tac 1. Qed.
Lemma y8 : ready pc0 1 p8. Proof. ready_tac 0. Qed.
Lemma y9 : ready pc0 1 p9. Proof. ready_tac 0. Qed.
Lemma y10 : ready pc0 1 p10. Proof. ready_tac 0. Qed.
Lemma y11 : ready pc0 2 p11. Proof. ready_tac 1. Qed.
Lemma y12 : ready pc0 2 p12. Proof. ready_tac 1. Qed.
Lemma y14 : ready pc0 1 p14. Proof. ready_tac 0. Qed.
Lemma l5 : live pc0 (fst p5) fd5 0. Proof. split; [reflexivity|]. split; [vm_compute; discriminate|vm_compute; reflexivity]. Qed.
Lemma l9 : live pc0 (fst p9) fd5 0. Proof. split; [reflexivity|]. split; [vm_compute; discriminate|vm_compute; reflexivity]. Qed.
Lemma l10 : live pc0 (fst p10) fd5 0. Proof. split; [reflexivity|]. split; [vm_compute; discriminate|vm_compute; reflexivity]. Qed.

(** ** C25 *)
Lemma at_df : at_name pc0 1 str_df EISDIR (fst p4) (Ok (0, 3, [102])).
Proof.
  exists (Ok (0, ROOT, [[100]; [102]])). split; [|vm_compute; reflexivity]. apply (St_abs pc0 1 str_df (fst p4) 0 str_df); [|reflexivity|].
  - apply (proj1 (pick_lookup pc0 pc0_ok _ _)). vm_compute. reflexivity.
  - right. intros (c & t & E & NE). vm_compute in E. injection E as <- <-. now apply NE.
Qed.
Example C25_create_ex : exists n d nm k, at_name pc0 1 str_df EISDIR (fst p4) (Ok (n, d, nm)) /\ live pc0 (fst p5) 1048576 k /\ n = 0 /\ d = 3 /\ nm = [102].
Proof.
  destruct (C25_create pc0 pc0_ok p4 1 str_df 20 1048576 p5 r4 y4 s5 eq_refl) as (n & d & nm & k & A & B & _). exists n, d, nm, k. split; [exact A|]. split; [exact B|].
  pose proof (at_name_fun pc0 pc0_ok 1 str_df EISDIR p4 _ _ r4 y4 A at_df) as E. injection E as -> -> ->. auto.
Qed.
Example C25_separators_ex : api pc0 1 (PMkdir [47; 47; 100]) p3 = api pc0 1 (PMkdir str_d) p3.
Proof. apply (C25_separators pc0 pc0_ok 1 _ _ [] [100] p3 pc0_nosep) with (p := [47; 47; 100]) (q := str_d); [apply nozero_names; repeat constructor; discriminate|left; split; reflexivity|left; split; reflexivity]. Qed.
Example C25_terminator_ex : api pc0 1 (PMkdir [47; 100; 0; 7; 7]) p3 = api pc0 1 (PMkdir str_d) p3.
Proof. apply (C25_terminator pc0 pc0_ok 1 _ _ [47; 100; 0; 7; 7] str_d); [reflexivity|left; split; reflexivity]. Qed.
(** ** C26 *)
Lemma volp0 p : p = [] \/ p = [47] -> volume_path pc0 p (Ok 0).
Proof.
  intros [-> | ->].
  - apply (Vp_ok pc0 [] 0 []); [apply (proj1 (pick_lookup pc0 pc0_ok _ _)); vm_compute; reflexivity|reflexivity|constructor].
  - apply (Vp_ok pc0 [47] 0 [47]); [apply (proj1 (pick_lookup pc0 pc0_ok _ _)); vm_compute; reflexivity|reflexivity|repeat constructor].
Qed.
Example C26_stale_ex : exists t, psteps pc0 p5 t p14 /\ mounts pc0 0 t 1 /\ no_restart t /\ forall k, ~ live pc0 (fst p14) fd5 k.
Proof.
  destruct s11 as (f & X & _).
  exists [ev 1 (PMount [] 0) (Ok RUnit); ev 2 (PUmount [47] 1) (Ok RUnit); ev 2 (PUmount [47] 0) (Err EBUSY); ev 1 (PRead fd5 100) (Ok (RBytes 3 f)); ev 1 (PLseek fd5 (-3) SEEK_CUR) (Ok (ROff 2)); ev 1 (PRmdir str_d) (Err EBUSY);
    ev 2 (PUnlink [102]) (Err EBUSY); ev 2 (PChdir [100]) (Ok RUnit); ev 1 (PWrite fd5 5 (fun k => 65 + k)) (Ok (RNum 5))].
  assert (PS : psteps pc0 p5 [ev 1 (PMount [] 0) (Ok RUnit); ev 2 (PUmount [47] 1) (Ok RUnit); ev 2 (PUmount [47] 0) (Err EBUSY); ev 1 (PRead fd5 100) (Ok (RBytes 3 f)); ev 1 (PLseek fd5 (-3) SEEK_CUR) (Ok (ROff 2)); ev 1 (PRmdir str_d) (Err EBUSY);
    ev 2 (PUnlink [102]) (Err EBUSY); ev 2 (PChdir [100]) (Ok RUnit); ev 1 (PWrite fd5 5 (fun k => 65 + k)) (Ok (RNum 5))] p14).
  { econstructor; [|exact s14]. econstructor; [|exact s13]. econstructor; [|exact s12]. econstructor; [|exact X]. econstructor; [|exact s10]. econstructor; [|exact s9]. econstructor; [|exact s8].
    econstructor; [|exact s7]. econstructor; [|exact s6]. constructor. }
  match type of PS with psteps _ _ ?t _ => assert (MT : mounts pc0 0 t 1) end.
  { apply (Mt_yes pc0 0 _ _ 0); [|exists 1, [], 0, RUnit; split; [reflexivity|now apply volp0; left]].
    repeat (apply Mt_no; [|intros (? & ? & ? & ? & EQ & _); discriminate]). constructor. }
  match type of PS with psteps _ _ ?t _ => assert (NR : no_restart t) by (cbn; intros H; repeat (destruct H as [H|H]; [discriminate|]); exact H) end.
  split; [exact PS|]. split; [exact MT|]. split; [exact NR|]. intros k LV.
  apply (C26_stale pc0 pc0_ok p5 _ p14 fd5 0 1 r5 PS NR) with (k' := k); [vm_compute; reflexivity|exact l5| |vm_compute; discriminate|split; [vm_compute; reflexivity|exact LV]].
  replace (h_vol (p_h (fst p5) 0)) with 0 by (vm_compute; reflexivity). exact MT.
Qed.
Example C26_rejected_ex : (forall k, ~ live pc0 (fst p14) fd5 k) /\ quiet (fst p14) (fst p15).
Proof.
  destruct C26_stale_ex as (t & _ & _ & _ & NL). split; [exact NL|]. now apply (C26_rejected pc0 pc0_ok p14 1 (PRead fd5 100) fd5 (Err EBADF) p15 r14 y14 s15 eq_refl eq_refl NL).
Qed.
(** ** C27 *)
Example C27_write_ex : h_wr (p_h (fst p5) 0) = true /\ p_h (fst p6) 0 = with_off (p_h (fst p5) 0) 5.
Proof.
  assert (W : h_wr (p_h (fst p5) 0) = true) by (vm_compute; reflexivity). split; [exact W|].
  destruct (C27_write pc0 pc0_ok p5 1 fd5 5 _ (Ok (RNum 5)) p6 0 r5 y5 s6) as (_ & X); [vm_compute; discriminate|exact l5|].
  destruct X as (nl & sz & bl & o & ST & V & _ & _ & O); [vm_compute; reflexivity|exact W|]. destruct o as [[ | c | | | | ]|e]; [destruct O| |destruct O|destruct O|destruct O|destruct O|destruct O as [O _]; discriminate O]. destruct O as (E & _ & O). rewrite O.
  injection E as <-. replace (h_app (p_h (fst p5) 0)) with false by (vm_compute; reflexivity). replace (h_off (p_h (fst p5) 0)) with 0 by (vm_compute; reflexivity). reflexivity.
Qed.
Example C27_lseek_ex : only_handle (fst p9) 0 (with_off (p_h (fst p9) 0) 2) (fst p10).
Proof.
  destruct (C27_lseek pc0 pc0_ok p9 1 fd5 (-3) SEEK_CUR (Ok (ROff 2)) p10 0 r9 y9 s10 l9) as (_ & X). destruct X as (nl & sz & bl & ST & [(B & E & O)|(_ & E & _)]); [vm_compute; reflexivity| |discriminate].
  replace (h_off (p_h (fst p9) 0)) with 5 in O by (vm_compute; reflexivity). exact O.
Qed.
Example C27_read_ex : exists f, only_handle (fst p10) 0 (with_off (p_h (fst p10) 0) 5) (fst p11) /\ f 0 = 67 /\ pstep pc0 p10 (ev 1 (PRead fd5 100) (Ok (RBytes 3 f))) p11.
Proof.
  destruct s11 as (f & X & F0 & _). exists f. split; [|auto]. destruct (C27_read pc0 pc0_ok p10 1 fd5 100 _ p11 0 r10 y10 X) as (_ & _ & Y); [vm_compute; discriminate|exact l10|].
  destruct Y as (c & f' & _ & E & O); [vm_compute; reflexivity|vm_compute; reflexivity|]. injection E as <- _. replace (h_off (p_h (fst p10) 0)) with 2 in O by (vm_compute; reflexivity). exact O.
Qed.
Example C27_modes_ex : documented 20 /\ ~ documented 17 /\ ~ documented 3 /\ ~ documented 34 /\ documented 9.
Proof. rewrite !documented_ok. vm_compute. intuition discriminate. Qed.
(** ** C28 *)
Lemma at_f7 : at_name pc0 2 [102] EBUSY (fst p7) (Ok (0, 3, [102])).
Proof.
  exists (Ok (0, 3, [[102]])). split; [|vm_compute; reflexivity]. apply (St_cwd pc0 2 [102] (fst p7) 0 3).
  - intros m PK. assert (m = 0) as ->; [|reflexivity]. eapply (picks_fun pc0 pc0_ok); [exact PK|]. apply (proj1 (pick_lookup pc0 pc0_ok _ _)); vm_compute; reflexivity.
  - exists 102, []. split; [reflexivity|discriminate].
  - exists 1. vm_compute. auto.
Qed.
Lemma pin7 : pinned pc0 (fst p7) 0 4.
Proof. split; [exists false, 5, 1; vm_compute; reflexivity|]. left. exists 0. vm_compute. auto. Qed.
Example C28_unlink_ex : pinned pc0 (fst p7) 0 4 /\ quiet (fst p7) (fst p8).
Proof. split; [exact pin7|]. apply (C28_unlink pc0 pc0_ok p7 2 [102] (Err EBUSY) p8 0 3 [102] 4 r7 y7 s8 at_f7); [vm_compute; reflexivity|exact pin7]. Qed.
Example C28_handles_ex : exists nl sz bl, vask pc0 0 (p_v (fst p8) 0) (CStat 4) = Ok (OStat (false, nl, sz, bl)).
Proof.
  destruct (C28_handles pc0 pc0_ok p8 0 r8) as (_ & _ & X); [vm_compute; reflexivity|vm_compute; reflexivity|vm_compute; discriminate|].
  replace (h_vol (p_h (fst p8) 0)) with 0 in X by (vm_compute; reflexivity). replace (h_ino (p_h (fst p8) 0)) with 4 in X by (vm_compute; reflexivity). replace (h_dir (p_h (fst p8) 0)) with false in X by (vm_compute; reflexivity). exact X.
Qed.
(** ** C29 *)
Example C29_busy_ex : any_open pc0 (fst p11) 0 /\ quiet (fst p11) (fst p12).
Proof.
  destruct (C29_umount pc0 pc0_ok p11 2 [47] 0 (Err EBUSY) p12 0 r11 y11 s12) as [(_ & A & _ & B & _)|(_ & X & _)]; [now apply volp0; right|vm_compute; reflexivity|auto|auto|discriminate].
Qed.
Example C29_forced_ex : is_open (fst p12) 0 0 /\ h_ino (p_h (fst p13) 0) = 0 /\ cwd_is pc0 2 (fst p12) 0 3 /\ cwd_is pc0 2 (fst p13) 0 ROOT.
Proof.
  assert (O : is_open (fst p12) 0 0) by (vm_compute; split; [discriminate|reflexivity]). split; [exact O|]. split.
  - destruct (C29_umount pc0 pc0_ok p12 2 [47] 1 (Ok RUnit) p13 0 r12 y12 s13) as [(X & _)|(_ & _ & _ & _ & A & _)]; [now apply volp0; right|vm_compute; reflexivity|auto|discriminate|]. apply A; [reflexivity|exact O].
  - split; exists 1; vm_compute; auto.
Qed.
(** ** C30 *)
Example C30_full_ex : fst p16 = fst p15.
Proof.
  apply (C30_full pc0 pc0_ok p15 3 (PMkdir str_df) (Err EUSERS) p16 r15); [vm_compute; reflexivity|exact s16|reflexivity|].
  intros k Hk. destruct (two k Hk) as [-> | ->]; vm_compute; split; discriminate.
Qed.
Example C30_errno_ex : e_task (snd p8) 1 = Some EBUSY /\ e_task (snd p8) 0 = None /\ e_glob (snd p8) = None.
Proof. vm_compute. auto. Qed.
Example C30_cwd_ex : cwd_is pc0 1 (fst p6) 0 ROOT /\ cwd_is pc0 1 (fst p7) 0 ROOT /\ cwd_is pc0 2 (fst p7) 0 3.
Proof. split; [exists 0|split; [exists 0|exists 1]]; vm_compute; auto. Qed.
(** ** C35 *)
Example C35_ex : res_of pc0 2 (PGetcwd 3 20) p8 = Ok (RStr str_d) /\ res_of pc0 2 (PGetcwd 2 20) p8 = Err ERANGE /\ cwd_is pc0 2 (fst p8) 0 3 /\ at_file pc0 1 str_d (fst p8) (Ok (0, 3)).
Proof.
  split; [vm_compute; reflexivity|]. split; [vm_compute; reflexivity|]. split; [exists 1; vm_compute; auto|].
  exists (Ok (0, ROOT, [[100]])). split; [|vm_compute; reflexivity]. apply (St_abs pc0 1 str_d (fst p8) 0 str_d); [|reflexivity|].
  - apply (proj1 (pick_lookup pc0 pc0_ok _ _)). vm_compute. reflexivity.
  - right. intros (c & t & E & NE). vm_compute in E. injection E as <- <-. now apply NE.
Qed.
(** Without a condition on the volume prefixes, the path may lead elsewhere: with the volumes "" and "/a" the
    directory "a" in the root directory of the first has the path "/a". *)
Definition q1 := init pcA p0.
Definition q2 := run pcA 1 (PFormat []) q1.
Definition q3 := run pcA 1 (PMount [] 0) q2.
Definition q4 := run pcA 1 (PMkdir [97]) q3.
Definition q5 := run pcA 1 (PChdir [97]) q4.
Lemma qr5 : preach pcA q5.
Proof.
  assert (R1 : preach pcA q1) by (apply init_reach, p0_reach; reflexivity).
  assert (R2 : preach pcA q2) by (eapply preach_step; [exact R1|]; apply run_step; [discriminate|exact I|vm_compute; reflexivity]).
  assert (R3 : preach pcA q3) by (eapply preach_step; [exact R2|]; apply run_step; [discriminate|exact I|vm_compute; reflexivity]).
  assert (R4 : preach pcA q4) by (eapply preach_step; [exact R3|]; apply run_step; [discriminate|exact I|vm_compute; reflexivity]).
  eapply preach_step; [exact R4|]. apply run_step; [discriminate|exact I|vm_compute; reflexivity].
Qed.
Theorem C35_unrestricted_refuted : exists p, preach pcA q5 /\ ready pcA 1 q5 /\ cwd_is pcA 1 (fst q5) 0 3 /\ res_of pcA 1 (PGetcwd 20 20) q5 = Ok (RStr p) /\ starts pcA 1 p (fst q5) (Ok (1, ROOT, [])) /\
  forall n j, at_file pcA 1 p (fst q5) (Ok (n, j)) -> n <> 0.
Proof.
  assert (RD : ready pcA 1 q5) by (ready_tac 0). assert (ST : starts pcA 1 [47; 97] (fst q5) (Ok (1, ROOT, []))).
  { apply (St_abs pcA 1 [47; 97] (fst q5) 1 []); [apply (proj1 (pick_lookup pcA pcA_ok _ _)); vm_compute; reflexivity|reflexivity|left; discriminate]. }
  exists [47; 97]. split; [exact qr5|]. split; [exact RD|]. split; [exists 0; vm_compute; auto|]. split; [vm_compute; reflexivity|]. split; [exact ST|].
  intros n j (st & S & E). rewrite (starts_fun pcA pcA_ok _ _ _ _ _ qr5 RD ST S) in E. destruct (vlook pcA 1 (p_v (fst q5) 1) ROOT []); [|discriminate]. injection E as -> ->. discriminate.
Qed.
