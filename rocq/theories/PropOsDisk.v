(** C54: the RAM and file disks of the Linux port (os/linux/services/osbdev.c). *)
From Verif Require Import Base OsDiskSpec OsDisk.
From Coq Require Import List. Import ListNotations.
Ltac Zify.zify_post_hook ::= idtac.
Open Scope N_scope.

Section prop.
Variables (NV : N) (ssize soff limit : N -> N) (auto : N -> bool).
Notation exec := (exec NV ssize soff limit auto).
Definition media (d : disk) (a : N) : N := match type d with RamDisk => match ram d with Some m => m a | None => 0 end | FileDisk => f_data (fil d) a end.
(** Less than 4 GiB are transferred at a time, below the end of the 64-bit range *)
Definition small (c : call) : Prop :=
  match c with
  | Read v start count _ _ | Write v start count _ _ => count * ssize v < 4294967296 /\ (start + count) * ssize v < 18446744073709551616
  | _ => True
  end.
Definition agrees (K : known) (w : N -> disk) : Prop := forall v a b, K v a = Some b -> media (w v) a = b.
Lemma upd_same {A} (w : N -> A) v d : upd w v d v = d. Proof. unfold upd. now rewrite N.eqb_refl. Qed.
Lemma upd_other {A} (w : N -> A) v d x : x <> v -> upd w v d x = w x. Proof. intros H. unfold upd. destruct (N.eqb_spec x v); congruence. Qed.
Lemma agrees_upd K w v d : agrees K w -> (forall a b, K v a = Some b -> media d a = b) -> agrees K (upd w v d).
Proof. intros A H x a b E. destruct (N.eq_dec x v) as [->|N]; [rewrite upd_same; auto|rewrite upd_other by auto; eapply A; eauto]. Qed.

Lemma open_media v m h d r d' : disk_open soff auto v m h d = (r, d') -> type d' = type d /\ media d' = media d.
Proof.
  unfold disk_open. intros H. unfold media. destruct (type d) eqn:T.
  - destruct (auto v); [injection H as <- <-; now rewrite T|]. destruct (0 <? soff v); [injection H as <- <-; now rewrite T|].
    destruct (ram d) eqn:R; [injection H as <- <-; now rewrite T, R|]. destruct h; injection H as <- <-; cbn; rewrite ?T, ?R; auto.
  - injection H as <- <-. cbn. rewrite ?T. auto.
Qed.
Lemma close_media h1 h2 d r d' : disk_close h1 h2 d = (r, d') -> type d' = type d /\ media d' = media d.
Proof.
  unfold disk_close. intros H. unfold media. destruct (type d) eqn:T; [injection H as <- <-; now rewrite T|].
  destruct (_ =? 0)%Z; injection H as <- <-; cbn; rewrite ?T; auto.
Qed.

(** A transfer in the range: what is read, and what a write changes *)
Lemma read_ok v start count buf h d r b : count * ssize v < 4294967296 -> (start + count) * ssize v < 18446744073709551616 ->
  match type d with RamDisk => RamDiskRead ssize v start count buf d | FileDisk => FileDiskRead ssize v start count buf h d end = (r, b) -> r = 0%Z ->
  forall i, b i = if i <? count * ssize v then media d (start * ssize v + i) else buf i.
Proof.
  intros S1 S2 H R i. rewrite N.mul_add_distr_r in S2. unfold media. destruct (type d).
  - unfold RamDiskRead, u64, u32 in H. rewrite !N.mod_small in H by lia. injection H as <- <-. reflexivity.
  - unfold FileDiskRead, u64, u32, EINVAL, EIO in H. rewrite !(N.mul_comm (ssize v)) in H. rewrite !N.mod_small in H by lia.
    destruct (SSIZE_MAX <? count * ssize v); [injection H as <- <-; discriminate|]. destruct (valid d); [|injection H as <- <-; discriminate].
    destruct h as [|k]; [injection H as <- <-; discriminate|].
    destruct (N.eqb_spec (N.min k (N.min (count * ssize v) (f_size (fil d) - start * ssize v))) (count * ssize v)) as [E|]; injection H as <- <-; [|discriminate].
    rewrite E. reflexivity.
Qed.
Lemma write_ok v start count buf h d r d' : count * ssize v < 4294967296 -> (start + count) * ssize v < 18446744073709551616 ->
  match type d with RamDisk => RamDiskWrite ssize v start count buf d | FileDisk => FileDiskWrite ssize v start count buf h d end = (r, d') ->
  (r = 0%Z -> forall i, i < count * ssize v -> media d' (start * ssize v + i) = buf i) /\
  (forall a, ~ covers ssize v start count a -> media d' a = media d a).
Proof.
  intros S1 S2 H. unfold covers. rewrite N.mul_add_distr_r in *. unfold media. destruct (type d) eqn:T.
  - unfold RamDiskWrite, u64, u32 in H. rewrite !N.mod_small in H by lia. injection H as <- <-. cbn [type ram]. rewrite T. split.
    + intros _ i Hi. assert ((start * ssize v <=? start * ssize v + i) = true) as -> by (apply N.leb_le; lia).
      assert ((start * ssize v + i <? start * ssize v + count * ssize v) = true) as -> by (apply N.ltb_lt; lia). cbn [andb]. f_equal. lia.
    + intros a Ha. destruct (N.leb_spec (start * ssize v) a); [|reflexivity]. destruct (N.ltb_spec a (start * ssize v + count * ssize v)); [|reflexivity]. exfalso. lia.
  - unfold FileDiskWrite, u64, u32, EINVAL, EIO in H. rewrite !(N.mul_comm (ssize v)) in H. rewrite !N.mod_small in H by lia.
    destruct (SSIZE_MAX <? count * ssize v); [injection H as <- <-; rewrite T; split; [discriminate|auto]|]. destruct (valid d); [|injection H as <- <-; rewrite T; split; [discriminate|auto]].
    destruct h as [|k]; [injection H as <- <-; rewrite T; split; [discriminate|auto]|]. set (n := N.min k (count * ssize v)) in *. assert (Hn : n <= count * ssize v) by lia. clearbody n.
    injection H as <- <-. cbn [type fil f_data]. rewrite T. split.
    + destruct (N.eqb_spec n (count * ssize v)) as [->|]; [|discriminate]. intros _ i Hi.
      assert ((start * ssize v <=? start * ssize v + i) = true) as -> by (apply N.leb_le; lia).
      assert ((start * ssize v + i <? start * ssize v + count * ssize v) = true) as -> by (apply N.ltb_lt; lia). cbn [andb]. f_equal. lia.
    + intros a Ha. destruct (N.leb_spec (start * ssize v) a); [|reflexivity]. destruct (N.ltb_spec a (start * ssize v + n)); [|reflexivity]. exfalso. lia.
Qed.

Definition covb (v start count a : N) : bool := (start * ssize v <=? a) && (a <? (start + count) * ssize v).
Lemma covb_spec v start count a : covb v start count a = true <-> covers ssize v start count a.
Proof. unfold covb, covers. rewrite Bool.andb_true_iff, N.leb_le, N.ltb_lt. tauto. Qed.
(** [known] with the sectors replaced *)
Definition over (K : known) (v start count : N) (b : N -> option N) : known :=
  fun w a => if (w =? v) && covb v start count a then b (a - start * ssize v) else K w a.
Lemma over_in K v start count b i : i < count * ssize v -> over K v start count b v (start * ssize v + i) = b i.
Proof.
  intros H. unfold over. rewrite N.eqb_refl. assert (covb v start count (start * ssize v + i) = true) as ->.
  { apply covb_spec. unfold covers. rewrite N.mul_add_distr_r. lia. }
  cbn [andb]. f_equal. lia.
Qed.
Lemma over_out K v start count b w a : w <> v \/ ~ covers ssize v start count a -> over K v start count b w a = K w a.
Proof.
  intros H. unfold over. destruct (N.eqb_spec w v); [|reflexivity]. cbn [andb]. destruct (covb v start count a) eqn:C; [|reflexivity].
  apply covb_spec in C. destruct H; contradiction.
Qed.
Lemma over_some K v start count b w a x : over K v start count b w a = Some x ->
  (w = v /\ exists i, i < count * ssize v /\ a = start * ssize v + i /\ b i = Some x) \/ ((w <> v \/ ~ covers ssize v start count a) /\ K w a = Some x).
Proof.
  unfold over. destruct (N.eqb_spec w v) as [->|]; [|auto]. cbn [andb]. destruct (covb v start count a) eqn:C.
  - apply covb_spec in C. intros E. left. split; auto. exists (a - start * ssize v). unfold covers in C. rewrite N.mul_add_distr_r in C. repeat split; auto; lia.
  - intros E. right. split; auto. right. intros X. apply covb_spec in X. congruence.
Qed.

Lemma step c w w' r K : exec c w = (w', r) -> small c -> agrees K w -> exists K', answered ssize K c r K' /\ agrees K' w'.
Proof.
  intros E S A. destruct c as [v ty f dv n|v m h|v h1 h2|v start count buf h|v start count buf h|v h]; cbn [OsDisk.exec] in E.
  - destruct (_ || _ || _); injection E as <- <-.
    + exists K. split; auto. apply A_config; cbn; auto.
    + exists (fun x a => if x =? v then None else K x a). split.
      * apply A_config; cbn; intros; [destruct (N.eqb_spec w0 v); congruence|rewrite N.eqb_refl; reflexivity].
      * intros x a b. destruct (N.eqb_spec x v); [discriminate|]. rewrite upd_other by auto. apply A.
  - exists K. split; [constructor|]. destruct (_ || _); [injection E as <- <-; auto|]. destruct (disk_open soff auto v m h (w v)) as [ret d] eqn:Q.
    apply open_media in Q as [T M]. injection E as <- <-. apply agrees_upd; auto. intros a b Kab. apply A in Kab. rewrite <- M in Kab.
    destruct (ret =? 0)%Z; auto.
  - exists K. split; [constructor|]. destruct (_ || _); [injection E as <- <-; auto|]. destruct (disk_close h1 h2 (w v)) as [ret d] eqn:Q.
    apply close_media in Q as [T M]. injection E as <- <-. apply agrees_upd; auto. intros a b Kab. apply A in Kab. rewrite <- M in Kab.
    destruct (ret =? 0)%Z; auto.
  - destruct (_ || _ || _ || _); [injection E as <- <-; exists K; split; auto; apply A_read_fail; discriminate|]. destruct S as [S1 S2].
    destruct (match type (w v) with RamDisk => _ | FileDisk => _ end) as [ret b] eqn:Q. injection E as <- <-.
    destruct (Z.eq_dec ret 0) as [->|NZ]; [|exists K; split; auto; apply A_read_fail; auto].
    pose proof (read_ok v start count buf h (w v) 0%Z b S1 S2 Q eq_refl) as R. exists (over K v start count (fun i => Some (b i))). split.
    + apply A_read; cbn [status buffer]; auto.
      * intros i x Hi Kx. rewrite R. apply N.ltb_lt in Hi. rewrite Hi. apply A. exact Kx.
      * intros i Hi. rewrite R. apply N.ltb_ge in Hi. rewrite Hi. reflexivity.
      * intros i Hi. exact (over_in K v start count (fun i => Some (b i)) i Hi).
      * intros x a H. apply over_out. exact H.
    + intros x a y Kx. apply over_some in Kx as [(-> & i & Hi & -> & X)|(_ & X)]; [|apply A; auto].
      injection X as <-. rewrite R. apply N.ltb_lt in Hi. rewrite Hi. reflexivity.
  - destruct (_ || _ || _ || _); [injection E as <- <-; exists K; split; auto; apply A_write_refused; discriminate|]. destruct S as [S1 S2].
    destruct (match type (w v) with RamDisk => _ | FileDisk => _ end) as [ret d] eqn:Q. injection E as <- <-.
    destruct (write_ok v start count buf h (w v) ret d S1 S2 Q) as [W1 W2]. exists (over K v start count (fun i => if (ret =? 0)%Z then Some (buf i) else None)). split.
    + apply A_write; cbn [status]; [intros i Hi; exact (over_in K v start count (fun i => if (ret =? 0)%Z then Some (buf i) else None) i Hi)|intros x a H; apply over_out; exact H].
    + intros x a y Kx. apply over_some in Kx as [(-> & i & Hi & -> & X)|(O & X)].
      * rewrite upd_same. destruct (Z.eqb_spec ret 0); [|discriminate]. injection X as <-. auto.
      * destruct (N.eq_dec x v) as [->|NX]; [rewrite upd_same|rewrite upd_other by auto; apply A; exact X].
        destruct O as [O|O]; [congruence|]. rewrite W2 by exact O. apply A. exact X.
  - exists K. split; [constructor|]. destruct (_ || _ || _); injection E as <- <-; auto.
Qed.
(** In every history of calls, whatever the host does: what was written successfully is read, until it is overwritten or the
    disk is configured anew; closing and opening do not matter, nor failures elsewhere, nor other volumes. *)
Theorem C54_history : forall cs, Forall small cs -> history ssize unknown (run NV ssize soff limit auto cs gaDisk).
Proof.
  intros cs. assert (A : agrees unknown gaDisk) by (intros v a b; discriminate). revert A. generalize unknown, gaDisk.
  induction cs as [|c cs IH]; intros K w A S; cbn [run]; [constructor|]. inversion S as [|? ? Sc Scs]; subst.
  destruct (exec c w) as [w' r] eqn:E. destruct (step c w w' r K E Sc A) as (K' & AN & A'). eapply H_cons; eauto.
Qed.
(** A call on a disk that is closed, or not opened for it, or on sectors that are not the volume's, fails and changes nothing.
    (A start behind the end of the volume is not recognised, see PropBdev.v.) *)
Definition outside (v start count : N) : Prop := start < soff v \/ start <= limit v < start + count /\ limit v < 18446744073709551616.
Lemma outside_invalid v start count : outside v start count -> range_valid soff limit v start count = false.
Proof.
  unfold range_valid. intros [H|(H & L)]; [apply N.leb_gt in H; rewrite H; reflexivity|]. apply Bool.andb_false_iff. right. apply N.leb_gt.
  unfold u64. replace (limit v + 18446744073709551616 - start) with (limit v - start + 1 * 18446744073709551616) by lia.
  rewrite N.mod_add by lia. rewrite N.mod_small by lia. lia.
Qed.
Theorem C54_refused : forall w v start count buf h,
  (NV <= v \/ fOpen (w v) = false \/ dmode (w v) = WRONLY \/ outside v start count -> exec (Read v start count buf h) w = (w, mkA EINVAL buf)) /\
  (NV <= v \/ fOpen (w v) = false \/ dmode (w v) = RDONLY \/ outside v start count -> exists b, exec (Write v start count buf h) w = (w, mkA EINVAL b)).
Proof.
  intros w v start count buf h. cbn [OsDisk.exec]. split.
  - intros [H|[-> |[-> |H]]]; [apply N.leb_le in H; rewrite H| | |apply outside_invalid in H; rewrite H]; cbn [negb orb]; rewrite ?Bool.orb_true_r; auto.
  - intros H. exists nobuf. destruct H as [H|[-> |[-> |H]]]; [apply N.leb_le in H; rewrite H| | |apply outside_invalid in H; rewrite H]; cbn [negb orb]; rewrite ?Bool.orb_true_r; auto.
Qed.
(** Sectors of the volume can be transferred if the host moves all bytes (reading a file: that exist) *)
Theorem C54_served : forall w v start count buf k, v < NV -> fOpen (w v) = true -> soff v <= start -> start + count <= limit v -> limit v < 18446744073709551616 ->
  small (Read v start count buf (HMoved k)) -> valid (w v) = true -> count * ssize v <= k ->
  (dmode (w v) <> RDONLY -> status (snd (exec (Write v start count buf (HMoved k)) w)) = 0%Z) /\
  (dmode (w v) <> WRONLY -> type (w v) = RamDisk \/ (start + count) * ssize v <= f_size (fil (w v)) -> status (snd (exec (Read v start count buf (HMoved k)) w)) = 0%Z).
Proof.
  intros w v start count buf k HV HO HS HL L64 [S1 S2] FD HK. cbn [OsDisk.exec]. unfold range_valid. rewrite HO. apply N.leb_gt in HV. rewrite HV.
  apply N.leb_le in HS. rewrite HS.
  assert (u64 (limit v + 18446744073709551616 - start) = limit v - start) as ->.
  { unfold u64. replace (limit v + 18446744073709551616 - start) with (limit v - start + 1 * 18446744073709551616) by lia. rewrite N.mod_add by lia. apply N.mod_small. lia. }
  assert (count <=? limit v - start = true) as -> by (apply N.leb_le; lia). cbn [negb orb andb]. rewrite N.mul_add_distr_r in *. split.
  - intros M. assert ((match dmode (w v) with RDONLY => true | _ => false end) = false) as -> by (destruct (dmode (w v)); congruence). cbn [orb].
    destruct (type (w v)); [reflexivity|]. unfold FileDiskWrite, u64, u32. rewrite !(N.mul_comm (ssize v)). rewrite !N.mod_small by lia.
    assert (SSIZE_MAX <? count * ssize v = false) as -> by (apply N.ltb_ge; unfold SSIZE_MAX; lia). rewrite FD. rewrite N.min_r by lia. rewrite N.eqb_refl. reflexivity.
  - intros M F. assert ((match dmode (w v) with WRONLY => true | _ => false end) = false) as -> by (destruct (dmode (w v)); congruence). cbn [orb].
    destruct (type (w v)); [reflexivity|]. destruct F as [|F]; [discriminate|]. unfold FileDiskRead, u64, u32. rewrite !(N.mul_comm (ssize v)). rewrite !N.mod_small by lia.
    assert (SSIZE_MAX <? count * ssize v = false) as -> by (apply N.ltb_ge; unfold SSIZE_MAX; lia). rewrite FD.
    rewrite (N.min_l (count * ssize v)) by lia. rewrite N.min_r by lia. rewrite N.eqb_refl. reflexivity.
Qed.
End prop.

(** Without the limit of 4 GiB this is false, on both kinds of disk: the length is computed in 32 bits, nothing is transferred
    and success is returned.  Here 2^23 sectors of 512 bytes are written as 7, and byte 0 is read as 0. *)
Definition big_history (ty : kind) : list call :=
  [Config 0 ty (mkF 4294967296 (fun _ => 0)) false true; Open 0 RDWR true; Write 0 0 8388608 (fun _ => 7) (HMoved 4294967296); Read 0 0 1 (fun _ => 1) (HMoved 512)].
Theorem C54_wrap_refuted : forall ty, exists r1 r2 r3 r4,
  run 1 (fun _ => 512) (fun _ => 0) (fun _ => 8388608) (fun _ => false) (big_history ty) gaDisk = combine (big_history ty) [r1; r2; r3; r4] /\
  status r1 = 0%Z /\ status r2 = 0%Z /\ status r3 = 0%Z /\ status r4 = 0%Z /\ buffer r4 0 = 0.
Proof. intros ty. destruct ty; unfold big_history; cbn [run]; eexists _, _, _, _; (split; [reflexivity|]); vm_compute; auto. Qed.
(** After close of the host failed the disk counts as open, but can be neither read nor closed any more *)
Theorem C54_close_refuted : exists w c,
  snd (exec 1 (fun _ => 512) (fun _ => 0) (fun _ => 8) (fun _ => false) c w) = mkA EIO nobuf /\ c = Close 0 true false /\
  let w' := fst (exec 1 (fun _ => 512) (fun _ => 0) (fun _ => 8) (fun _ => false) c w) in
  forall h1 h2 m, fst (exec 1 (fun _ => 512) (fun _ => 0) (fun _ => 8) (fun _ => false) (Close 0 h1 h2) w') 0 = w' 0 /\
    status (snd (exec 1 (fun _ => 512) (fun _ => 0) (fun _ => 8) (fun _ => false) (Close 0 h1 h2) w')) <> 0%Z /\
    status (snd (exec 1 (fun _ => 512) (fun _ => 0) (fun _ => 8) (fun _ => false) (Open 0 m h1) w')) <> 0%Z.
Proof.
  exists (fun _ => mkD true RDWR FileDisk None (mkF 4096 (fun _ => 0)) true false), (Close 0 true false). split; [reflexivity|]. split; [reflexivity|].
  cbv zeta. intros h1 h2 m. split; [destruct h1, h2; reflexivity|]. split; destruct h1, h2; discriminate.
Qed.
(** Write, close, open read-only, read *)
Definition example_history : list call :=
  [Config 0 FileDisk (mkF 0 (fun _ => 0)) false true; Open 0 RDWR true; Write 0 2 1 (fun i => i) (HMoved 600); Write 0 3 1 (fun i => 9) (HMoved 100);
   Close 0 true true; Open 0 RDONLY true; Read 0 2 1 (fun _ => 0) (HMoved 512); Write 0 2 1 (fun i => 8) (HMoved 600)].
Example C54_example : Forall (small (fun _ => 512)) example_history /\
  map (fun x => (status (snd x), buffer (snd x) 300)) (run 1 (fun _ => 512) (fun _ => 1) (fun _ => 9) (fun _ => false) example_history gaDisk) =
  [(0%Z, 0); (0%Z, 0); (0%Z, 0); ((-5)%Z, 0); (0%Z, 0); (0%Z, 0); (0%Z, 300); ((-22)%Z, 0)].
Proof. split; [repeat (apply Forall_cons; [cbn; split; reflexivity || exact I || auto|]); apply Forall_nil|vm_compute; reflexivity]. Qed.
