(** C54: the Linux disks behave as Bdev.v (blockio.c, bdev.c) assumes of the operating system. *)
From Verif Require Import Base Geometry Bdev OsDiskSpec OsDisk PropOsDisk.
Ltac Zify.zify_post_hook ::= idtac.
Open Scope N_scope.

Section link.
Variables (NV : N) (ssize soff limit : N -> N) (auto : N -> bool).
Variables (fault : N -> outcome) (info : N -> bdevinfo).
Notation exec := (OsDisk.exec NV ssize soff limit auto).
(** A successful read is the one of Bdev.v with outcome Good; the media stay *)
Theorem C54_model_read : forall w v start count buf h w' r d,
  exec (Read v start count buf h) w = (w', r) -> small ssize (Read v start count buf h) ->
  bi_ssize (info v) = ssize v -> (forall a, d_media d a = media (w v) a) ->
  w' = w /\ (status r = 0%Z -> fault (d_calls d) = Good ->
    exists b, fst (Bdev.RedOsBDevRead fault info v start count buf d) = Ok b /\ forall i, b i = buffer r i).
Proof.
  intros w v start count buf h w' r d E [S1 S2] I M. cbn [OsDisk.exec] in E. destruct (_ || _ || _ || _); [injection E as <- <-; split; [reflexivity|discriminate]|].
  destruct (match type (w v) with RamDisk => _ | FileDisk => _ end) as [ret b] eqn:Q. injection E as <- <-. split; [reflexivity|].
  cbn [status buffer]. intros -> G. unfold Bdev.RedOsBDevRead. rewrite G. eexists. split; [reflexivity|]. intros i. rewrite I, M.
  symmetry. exact (read_ok ssize soff limit auto v start count buf h (w v) 0%Z b S1 S2 Q eq_refl i).
Qed.
(** A write is the one of Bdev.v with outcome Good if it succeeded, and with some outcome Bad if it failed *)
Theorem C54_model_write : forall w v start count buf h w' r d,
  exec (Write v start count buf h) w = (w', r) -> small ssize (Write v start count buf h) ->
  bi_ssize (info v) = ssize v -> (forall a, d_media d a = media (w v) a) ->
  (forall x, x <> v -> w' x = w x) /\
  (status r = 0%Z -> fault (d_calls d) = Good ->
    fst (Bdev.RedOsBDevWrite fault info v start count buf d) = Ok tt /\
    forall a, d_media (snd (Bdev.RedOsBDevWrite fault info v start count buf d)) a = media (w' v) a) /\
  (status r <> 0%Z -> exists junk, forall e, fault (d_calls d) = Bad e junk ->
    fst (Bdev.RedOsBDevWrite fault info v start count buf d) = Err e /\
    forall a, d_media (snd (Bdev.RedOsBDevWrite fault info v start count buf d)) a = media (w' v) a).
Proof.
  intros w v start count buf h w' r d E S I M. pose proof S as [S1 S2].
  assert (K : (forall x, x <> v -> w' x = w x) /\ (status r = 0%Z -> forall i, i < count * ssize v -> media (w' v) (start * ssize v + i) = buf i) /\
     forall a, ~ covers ssize v start count a -> media (w' v) a = media (w v) a).
  { cbn [OsDisk.exec] in E. destruct (_ || _ || _ || _); [injection E as <- <-; split; [auto|split; [discriminate|auto]]|].
    destruct (match type (w v) with RamDisk => _ | FileDisk => _ end) as [ret d'] eqn:Q. injection E as <- <-.
    destruct (write_ok ssize soff limit auto v start count buf h (w v) ret d' S1 S2 Q) as [W1 W2]. rewrite upd_same. split; [intros x X; apply upd_other; exact X|]. split; auto. }
  destruct K as (KO & K1 & K2).
  assert (P : forall (f : N -> N), (forall i, i < count * ssize v -> media (w' v) (start * ssize v + i) = f i) -> forall a,
     put_sectors (ssize v) start count f (d_media d) a = media (w' v) a).
  { intros f F a. unfold put_sectors. destruct (covb ssize v start count a) eqn:C; unfold covb in C; rewrite C.
    - apply (covb_spec NV ssize soff limit auto) in C. unfold covers in C. rewrite N.mul_add_distr_r in C. rewrite <- F by lia. f_equal. lia.
    - rewrite M. symmetry. apply K2. intros X. apply (covb_spec NV ssize soff limit auto) in X. unfold covb in X. congruence. }
  split; [exact KO|]. split.
  - intros R G. unfold Bdev.RedOsBDevWrite. rewrite G, I. cbn [fst snd called d_media]. split; [reflexivity|]. apply P. auto.
  - intros R. exists (fun i => media (w' v) (start * ssize v + i)). intros e G. unfold Bdev.RedOsBDevWrite. rewrite G, I. cbn [fst snd called d_media]. split; [reflexivity|].
    apply P. auto.
Qed.
End link.
