(** A full volume: instances of the theorems of PropFull.v and PropSpace.v, and a counterexample to
    the unrestricted C36. *)
From Verif Require Import Base Count FsState FsImap FsInode FsData FsInv FsWrite FsDir FsCore FsSpec FsMach FsVolume FsVolumeP FsReach FsKeep PropFs PropVol PropNs PropSpace PropFull Scenario ScenarioNs.
Definition src1 : N -> N := fun x => x mod 251.
(** A write of 40000 bytes on a volume with 38 blocks is short; two further writes and transaction
    points use up the rest. *)
Definition f1 := after v5 (CWrite 3 0 40000 src1).
Definition f2 := after f1 CTransact.
Definition f3 := after f2 (CWrite 3 30000 600 src1).
Definition f4 := after f3 CTransact.
Definition f5 := after f4 (CWrite 3 60000 600 src1).
Lemma sf1 : step0 v5 (Some (ECall (CWrite 3 0 40000 src1) (Ok (ONum 17408)))) f1. Proof. docall v5 (CWrite 3 0 40000 src1) (@Ok out (ONum 17408)). Qed.
Lemma sf2 : step0 f1 (Some (ECall CTransact (Ok OUnit))) f2. Proof. docall f1 CTransact (@Ok out OUnit). Qed.
Lemma sf3 : step0 f2 (Some (ECall (CWrite 3 30000 600 src1) (Ok (ONum 208)))) f3. Proof. docall f2 (CWrite 3 30000 600 src1) (@Ok out (ONum 208)). Qed.
Lemma sf4 : step0 f3 (Some (ECall CTransact (Ok OUnit))) f4. Proof. docall f3 CTransact (@Ok out OUnit). Qed.
Lemma sf5 : step0 f4 (Some (ECall (CWrite 3 60000 600 src1) (Err ENOSPC))) f5. Proof. docall f4 (CWrite 3 60000 600 src1) (@Err out ENOSPC). Qed.
Lemma reach_f3 : reach0 f3. Proof. eapply reach0_step; [eapply reach0_step; [eapply reach0_step; [exact reach5|exact sf1]|exact sf2]|exact sf3]. Qed.
Lemma reach_f4 : reach0 f4. Proof. eapply reach0_step; [exact reach_f3|exact sf4]. Qed.
Example C24_instance : nearly_full g0 true 1 2047 f5 /\ nearly_full g0 true 1 2047 f1 /\ MAXCOST g0 <= RESV g0 <= NALLOC g0 /\
  (forall r v', step0 f4 (Some (ECall (CUnlink 2 A) r)) v' -> r = Ok OUnit) /\
  (forall r v', step0 f4 (Some (ECall (CTruncate 3 100) r)) v' -> r = Ok OUnit).
Proof.
  assert (HR : MAXCOST g0 <= RESV g0 <= NALLOC g0) by (vm_compute; split; discriminate).
  split; [|split; [|split; [exact HR|split; intros r v' S]]].
  - exact (C24_nospc g0 g0_ok true 1 2047 0 f4 _ f5 reach_f4 sf5).
  - destruct (C24_short g0 g0_ok true 1 2047 0 v5 3 0 40000 src1 17408 f1 reach5 sf1 ltac:(vm_compute; reflexivity) ltac:(reflexivity)) as [E|E]; auto. vm_compute in E. discriminate.
  - refine (C24_delete g0 g0_ok true 1 2047 0 f3 CTransact OUnit f4 2 A 3 r v' HR reach_f3 sf4 (or_introl eq_refl) _ _ _ S); try (vm_compute; reflexivity).
    intros (x & y & z & E). exfalso. vm_compute in E. discriminate E.
  - destruct (reach_mnt g0 g0_ok true 1 2047 0 f4 reach_f4 ltac:(vm_compute; reflexivity)) as (W & C & SA).
    assert (FI : isf f4 3) by isfile. apply (is_file_W g0 g0_ok true 1 2047 0 _ _ _ _ _ SA) in FI. destruct FI as (nl & sz & b & Wi).
    assert (CT : content g0 true 1 2047 f4 3 sz b) by (apply (content_W g0 g0_ok true 1 2047 0 _ _ _ _ _ SA); eauto).
    refine (C24_shrink g0 g0_ok true 1 2047 0 f3 CTransact OUnit f4 3 sz b 100 r v' HR reach_f3 sf4 (or_introl eq_refl) _ CT _ S); [vm_compute; reflexivity|].
    destruct (CT 0 200) as (f & E & _). apply (f_equal (fun r => match r with Ok (ORead (n, _)) => n | _ => 0 end)) in E. cbv beta iota in E. rewrite N.sub_0_r in E.
    assert (E2 : 200 = N.min 200 sz) by (rewrite <- E; vm_compute; reflexivity). clear - E2. lia.
Qed.

(** All files deleted and a transaction point: the counters are those of a new volume. *)
Definition d1 := after v7 CTransact.
Lemma sd1 : step0 v7 (Some (ECall CTransact (Ok OUnit))) d1. Proof. docall v7 CTransact (@Ok out OUnit). Qed.
Lemma reach_d1 : reach0 d1. Proof. eapply reach0_step; [exact reach7|exact sd1]. Qed.
Lemma bare_d1 : bare g0 true 1 2047 d1.
Proof.
  intros k nm i H. destruct (C20_walk g0 g0_ok true 1 2047 0 d1 2 0 reach_d1 ltac:(vm_compute; reflexivity) ltac:(do 3 eexists; vm_compute; reflexivity)) as (L & ks & WL & _ & F2 & AL & _).
  assert (L = []). { eapply (C20_deterministic g0 true 1 2047); [exact WL|]. eapply W_end. vm_compute. reflexivity. } subst L. inversion F2; subst. exact (AL k nm i (N.le_0_l _) H).
Qed.
Example C18_instance : forall o1 o2, exec g0 true 1 2047 CVolStat o1 o2 d1 = (Ok (OVStat (38, 9, false)), d1, []).
Proof. intros. rewrite (C18_all_deleted g0 g0_ok true 1 2047 0 v7 CTransact OUnit d1 reach7 sd1 (or_introl eq_refl) bare_d1). vm_compute. reflexivity. Qed.
(** Format of a volume with files on it. *)
Definition q1 := after v5 CUnmount.
Definition q2 := after q1 CFormat.
Lemma sq1 : step0 v5 (Some (ECall CUnmount (Ok OUnit))) q1. Proof. docall v5 CUnmount (@Ok out OUnit). Qed.
Lemma sq2 : step0 q1 (Some (ECall CFormat (Ok OUnit))) q2. Proof. docall q1 CFormat (@Ok out OUnit). Qed.
Example C36_instance : exists v2, step0 q2 (Some (ECall (CMount 0) (Ok OUnit))) v2 /\ bare g0 true 1 2047 v2.
Proof.
  destruct (C36_format g0 g0_ok true 1 2047 0 q1 q2 0) as (v2 & S & _ & B & _); eauto; [eapply reach0_step; [exact reach5|exact sq1]|exact sq2|vm_compute; discriminate].
Qed.
(** C36 fails without the restriction of [allowed] (FsReach.v): a volume unmounted without a
    transaction point while blocks of the committed state had been freed, then formatted and mounted,
    reports more free blocks than it has.  format.c does not reset ulAlmostFreeBlocks, which the free
    block counter on the media is computed from (volume.c:425 and 524 are the only resets). *)
Example C36_unrestricted_refuted : let r2 := after (after v7 CUnmount) CFormat in let r3 := after r2 (CMount 0) in
  result v7 CUnmount = Ok OUnit /\ result (after v7 CUnmount) CFormat = Ok OUnit /\ result r2 (CMount 0) = Ok OUnit /\
  result r3 CVolStat = Ok (OVStat (41, 9, false)) /\ NALLOC g0 - RESV g0 = 38.
Proof. vm_compute. repeat split; reflexivity. Qed.
Example C37_instance : 2 <= 3 < 2 + ICNT g0 /\ ask g0 true 1 2047 v2 (CStat 3) = Err EBADF /\ ask g0 true 1 2047 v3 (CStat 3) <> Err EBADF.
Proof. exact (C37_create g0 g0_ok true 1 2047 0 v2 2 A false 3 v3 reach2 st3). Qed.
