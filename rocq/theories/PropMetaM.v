(** C04: the byte-level metaroot handling refines the one of the file-system model (FsVolume.v), which
    treats the two metaroot blocks as slots that are valid or not. *)
From Verif Require Import Base Endian Crc Cache Metaroot MetaSpec MetarootP PropMeta FsState FsVolume.
Ltac Zify.zify_post_hook ::= idtac.

Section Link.
Variable BS SS : nat.
Variable posix swap atom : bool.
Hypothesis HS : (32 <= SS <= BS)%nat.
(** any interpretation of the members of a metaroot *)
Variable dec : N * N * N * list N -> mroot.

(** the slot which a block represents *)
Definition slot (x : list N) : mslot :=
  let '(v, s, _) := MetarootIsValid BS SS swap x in
  if v then MOk (seqno swap x) (dec (members posix swap x)) else MBad s.

(** The choice of the metaroot in the file-system model is the one the byte-level code makes. *)
Theorem C04_model_choose s r s' : blocks_ok BS (b_mr s) -> select BS SS posix swap atom s = (r, s') ->
  match choose atom (fun i => slot (b_mr s i)) with
  | Ok (i, q, m) => r = Ok i /\ get64 (b_mr s' i) o_seq = q /\ dec (members posix false (b_mr s' i)) = m
  | Err e => r = Err e
  end.
Proof.
  intros D. unfold select, choose, slot.
  pose proof (valid_spec BS SS swap HS (b_mr s false) (proj2 (D false)) (proj1 (D false))) as V0.
  destruct (MetarootIsValid BS SS swap (b_mr s false)) as [[v0 s0] x0].
  pose proof (valid_spec BS SS swap HS (b_mr s true) (proj2 (D true)) (proj1 (D true))) as V1.
  replace (b_mr (bset_mr s false (if v0 then mswap posix swap x0 else x0)) true) with (b_mr s true) by reflexivity.
  destruct (MetarootIsValid BS SS swap (b_mr s true)) as [[v1 s1] x1].
  destruct V0 as (_ & _ & V0c). destruct V1 as (_ & _ & V1c).
  assert (Q : forall i, get64 (mswap posix swap (zeroed (b_mr s i))) o_seq = seqno swap (b_mr s i)).
  { intros i. destruct (D i) as [L B]. rewrite get64_fld.
    rewrite (ms_fld' BS SS posix swap HS) by (try apply bytes_zeroed; try (rewrite length_zeroed; lia); auto; unfold is_fld, o_seq; lia).
    unfold MetaSpec.seqno, o_seq. rewrite (zeroed_fld BS SS HS) by (auto; lia). reflexivity. }
  assert (MM : forall i, members posix false (mswap posix swap (zeroed (b_mr s i))) = members posix swap (b_mr s i)).
  { intros i. destruct (D i) as [L B]. rewrite (ms_members' BS SS posix swap HS) by (try apply bytes_zeroed; try (rewrite length_zeroed; lia); auto).
    now rewrite (zeroed_members BS SS posix HS). }
  destruct v0.
  - cbn [negb andb orb]. destruct v1.
    + rewrite V0c, V1c by auto. cbn [b_mr bset_mr updb Bool.eqb]. rewrite !Q.
      destruct (seqno swap (b_mr s false) <? seqno swap (b_mr s true)); intros E; injection E as <- <-; cbn [b_mr bset_cur bset_mr updb Bool.eqb]; rewrite Q, MM; auto.
    + destruct (atom && negb s1); intros E; injection E as <- <-; auto. cbn [b_mr bset_cur bset_mr updb Bool.eqb]. rewrite V0c, Q, MM; auto.
  - destruct (atom && negb s0); cbn [negb andb orb]; [intros E; injection E as <- <-; auto|].
    destruct v1.
    + intros E; injection E as <- <-; cbn [b_mr bset_cur bset_mr updb Bool.eqb]. rewrite V1c, Q, MM; auto.
    + destruct (atom && negb s1); intros E; injection E as <- <-; auto.
Qed.

Lemma slot_facts x : length x = BS -> bytes_ok x ->
  (usable SS swap x /\ slot x = MOk (seqno swap x) (dec (members posix swap x)))
  \/ (~ usable SS swap x /\ exists sec, slot x = MBad sec /\ (sec = true <-> sector_ok SS swap x)).
Proof.
  intros L B. unfold slot. pose proof (valid_spec BS SS swap HS x B L) as V.
  destruct (MetarootIsValid BS SS swap x) as [[v s] y]. destruct V as (Va & Vb & _). destruct v.
  - left. split; auto. now apply Va.
  - right. split; [intros U; apply Va in U; discriminate|]. exists s. split; auto.
Qed.
(** The slot written by a transaction point is the one of the model: the members of the working metaroot
    under the current sequence number. *)
Theorem C04_model_transact s s' : blocks_ok BS (b_mr s) -> b_seq s < UINT64_MAX ->
  Metaroot.RedVolTransact BS SS posix swap (Ok tt) (Ok tt) None s = (Ok tt, s') ->
  slot (b_disk s' (b_cur s)) = MOk (b_seq s) (dec (members posix false (b_mr s (b_cur s)))).
Proof.
  intros D Q E. destruct (C04_transact BS SS posix swap atom HS _ _ _ _ _ _ D Q E) as (new & L & B & U & SQ & M & _ & _ & _ & _ & _ & _ & DI & _).
  rewrite DI. destruct (slot_facts new L B) as [[_ ->]|[N _]]; [now rewrite SQ, M|contradiction].
Qed.
(** After power loss during the write of a metaroot over a valid one, the slot is as the model of power
    loss says ([lose]: the old slot, the new slot, or a bad one, whose first sector is good if sector
    writes are atomic), or the mixture has the checksum of the new metaroot by accident. *)
Theorem C04_model_lose old new t :
  length old = BS -> length new = BS -> bytes_ok old -> bytes_ok new -> bytes_ok t ->
  usable SS swap old -> usable SS swap new -> torn SS old new t ->
  slot t = slot old \/ slot t = slot new \/ (exists sec, slot t = MBad sec /\ sec = true)
  \/ (exists b, (b = old \/ b = new) /\ t <> b /\ at_ t 0 SS = at_ b 0 SS /\ checksum (skipn 8 (zeroed t)) = checksum (skipn 8 (zeroed b))).
Proof.
  intros LO LN BO BN BT UO UN T.
  assert (LT : length t = BS) by (destruct T; lia).
  assert (ST := C04_torn_sector BS SS swap HS old new t LO LN T (proj1 UO) (proj1 UN)).
  destruct (slot_facts t LT BT) as [[U ->]|[_ (sec & -> & S)]].
  2:{ right; right; left. exists sec. split; auto. now apply S. }
  assert (K : forall b, length b = BS -> bytes_ok b -> usable SS swap b -> at_ t 0 SS = at_ b 0 SS -> t <> b ->
     checksum (skipn 8 (zeroed t)) = checksum (skipn 8 (zeroed b))).
  { intros b Lb Bb Ub F NE. destruct (first_sector BS SS swap HS _ _ LT Lb F) as (_ & X & _).
    destruct U as [_ U], Ub as [_ Ub]. rewrite <- U, <- Ub. apply X. lia. }
  destruct (torn_first SS _ _ _ T) as [F|F].
  - destruct (list_eq_dec N.eq_dec t old) as [->|NE]; [left; now destruct (slot_facts old LO BO) as [[_ ->]|[X _]]|]. right; right; right. exists old. auto.
  - destruct (list_eq_dec N.eq_dec t new) as [->|NE]; [right; left; now destruct (slot_facts new LN BN) as [[_ ->]|[X _]]|]. right; right; right. exists new. auto.
Qed.
(** If the sectors of a block reach the media in order, this holds whatever the block contained before
    (compare C04_double_tear_refuted): also over any number of interrupted writes, the slot is as [lose]
    says. *)
Theorem C04_model_lose_ordered old new k :
  length old = BS -> length new = BS -> bytes_ok old -> bytes_ok new -> usable SS swap new ->
  let t := firstn (k * SS) new ++ skipn (k * SS) old in
  slot t = slot old \/ slot t = slot new \/ slot t = MBad true
  \/ t <> new /\ at_ t 0 SS = at_ new 0 SS /\ checksum (skipn 8 (zeroed t)) = checksum (skipn 8 (zeroed new)).
Proof.
  intros LO LN BO BN UN t. destruct k as [|k]; [left; reflexivity|].
  assert (LT : length t = BS) by (unfold t; rewrite app_length, firstn_length, skipn_length; lia).
  assert (BT : bytes_ok t) by (apply Forall_app; split; [now apply Forall_firstn|now apply Forall_skipn]).
  assert (F : at_ t 0 SS = at_ new 0 SS).
  { unfold at_. cbn [skipn]. unfold t. rewrite firstn_app, firstn_firstn, firstn_length.
    replace (Nat.min SS (S k * SS)) with SS by lia. replace (SS - Nat.min (S k * SS) (length new))%nat with 0%nat by lia.
    cbn [firstn]. apply app_nil_r. }
  symmetry in F. destruct (first_sector BS SS swap HS _ _ LN LT F) as (_ & X & SO). symmetry in F.
  destruct (slot_facts t LT BT) as [[U E]|[_ (sec & E & S)]].
  - destruct (list_eq_dec N.eq_dec t new) as [EQ|NE]; [right; left; now rewrite EQ|]. right; right; right. split; auto. split; auto.
    destruct U as [_ U], UN as [_ UN]. rewrite <- U, <- UN. symmetry. apply X. lia.
  - right; right; left. rewrite E. f_equal. apply S, SO, UN.
Qed.
End Link.
