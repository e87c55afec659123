(** C04: mounting selects the newest valid metaroot and survives one torn metaroot (byte level). *)
From Verif Require Import Base Endian Crc Cache Metaroot MetaSpec MetarootP.
Ltac Zify.zify_post_hook ::= idtac.

Section C04.
Variable BS SS : nat.            (* block and sector size *)
Variable posix swap atom : bool.
Hypothesis HS : (32 <= SS <= BS)%nat.
Notation usable := (usable SS swap).
Notation sector_ok := (sector_ok SS swap).
Notation seqno := (seqno swap).
Notation mount := (RedVolMountMetaroot BS SS posix swap atom).
Notation transact := (RedVolTransact BS SS posix swap).

(** two metaroot blocks of arbitrary contents *)
Definition blocks_ok (d : bool -> list N) : Prop := forall i, length (d i) = BS /\ bytes_ok (d i).

Lemma select_spec s r s' : blocks_ok (b_mr s) -> select BS SS posix swap atom s = (r, s') ->
  b_disk s' = b_disk s /\ b_seq s' = b_seq s /\ b_mnt s' = b_mnt s /\
  match r with
  | Ok i => usable (b_mr s i) /\ (usable (b_mr s (negb i)) -> seqno (b_mr s (negb i)) <= seqno (b_mr s i))
     /\ b_cur s' = i /\ b_mr s' i = mswap posix swap (zeroed (b_mr s i))
  | Err e => e = EIO /\ ((forall i, ~ usable (b_mr s i)) \/ atom = true /\ exists i, ~ sector_ok (b_mr s i))
  end.
Proof.
  intros D. unfold select.
  pose proof (valid_spec BS SS swap HS (b_mr s false) (proj2 (D false)) (proj1 (D false))) as V0.
  destruct (MetarootIsValid BS SS swap (b_mr s false)) as [[v0 s0] x0].
  pose proof (valid_spec BS SS swap HS (b_mr s true) (proj2 (D true)) (proj1 (D true))) as V1.
  replace (b_mr (bset_mr s false (if v0 then mswap posix swap x0 else x0)) true) with (b_mr s true) by reflexivity.
  destruct (MetarootIsValid BS SS swap (b_mr s true)) as [[v1 s1] x1].
  destruct V0 as (V0a & V0b & V0c). destruct V1 as (V1a & V1b & V1c).
  assert (Q : forall i, get64 (mswap posix swap (zeroed (b_mr s i))) o_seq = seqno (b_mr s i)).
  { intros i. destruct (D i) as [L B]. rewrite get64_fld.
    rewrite (ms_fld' BS SS posix swap HS) by (try apply bytes_zeroed; try (rewrite length_zeroed; lia); auto; unfold is_fld, o_seq; lia).
    unfold MetaSpec.seqno, o_seq. rewrite (zeroed_fld BS SS HS) by (auto; lia). reflexivity. }
  destruct v0.
  - cbn [negb andb orb]. destruct v1.
    + rewrite V0c, V1c by auto. cbn [b_mr bset_mr updb Bool.eqb]. rewrite !Q.
      destruct (N.ltb_spec (seqno (b_mr s false)) (seqno (b_mr s true))); intros E; injection E as <- <-; cbn;
        (do 3 (split; [reflexivity|])); (split; [tauto|]); (split; [intros; lia|]); split; auto.
    + destruct (atom && negb s1) eqn:A; intros E; injection E as <- <-; cbn; (do 3 (split; [reflexivity|])).
      * split; auto. right. apply andb_true_iff in A. destruct A as [A1 A2]. split; auto. exists true. intros Z. apply V1b in Z. subst. discriminate.
      * split; [tauto|]. split; [intros Z; apply V1a in Z; discriminate|]. rewrite V0c by auto. auto.
  - destruct (atom && negb s0) eqn:A; cbn [negb andb orb].
    + intros E; injection E as <- <-; cbn; (do 3 (split; [reflexivity|])). split; auto. right. apply andb_true_iff in A. destruct A as [A1 A2].
      split; auto. exists false. intros Z. apply V0b in Z. subst. discriminate.
    + destruct v1.
      * intros E; injection E as <- <-; cbn; (do 3 (split; [reflexivity|])). split; [tauto|].
        split; [intros Z; apply V0a in Z; discriminate|]. rewrite V1c by auto. auto.
      * destruct (atom && negb s1) eqn:A1; intros E; injection E as <- <-; cbn; (do 3 (split; [reflexivity|])); (split; [auto|]).
        -- right. apply andb_true_iff in A1. destruct A1 as [A1 A2]. split; auto. exists true. intros Z. apply V1b in Z. subst. discriminate.
        -- left. intros [|] Z; [apply V1a in Z|apply V0a in Z]; discriminate.
Qed.

(** The outcome of mounting, for any contents of the two metaroot blocks, any sequence number of the
    master block and any previous state in memory. *)
Theorem C04_mount ro s r s' :
  blocks_ok (b_disk s) -> mount ro (Ok tt) (Ok tt) s = (r, s') ->
  let d := b_disk s in
  b_disk s' = d /\
  match r with
  | Ok _ => exists i,
      usable (d i) /\ (usable (d (negb i)) -> seqno (d (negb i)) <= seqno (d i))
      /\ (forall j, members posix false (b_mr s' j) = members posix swap (d i))
      /\ b_mnt s' = true /\ b_ro s' = ro /\ b_cur s' = negb i
      /\ b_seq s < b_seq s' /\ seqno (d i) < b_seq s'
  | Err e => b_mnt s' = b_mnt s /\
      (e = EIO /\ ((forall i, ~ usable (d i)) \/ atom = true /\ exists i, ~ sector_ok (d i))
       \/ e = EFUBAR /\ exists i, usable (d i) /\ N.max (b_seq s) (seqno (d i)) = UINT64_MAX)
  end.
Proof.
  intros D E. cbv zeta. unfold RedVolMountMetaroot in E.
  set (s1 := bset_mr (bset_mr s false (b_disk s false)) true (b_disk (bset_mr s false (b_disk s false)) true)) in E.
  assert (M : forall i, b_mr s1 i = b_disk s i) by (intros []; reflexivity).
  assert (D1 : blocks_ok (b_mr s1)) by (intros i; rewrite M; apply D).
  destruct (select BS SS posix swap atom s1) as [[i|e] s2] eqn:S; pose proof (select_spec _ _ _ D1 S) as (P1 & P2 & P3 & P4).
  - destruct P4 as (U & O & C & X). rewrite !M in *.
    assert (Q : get64 (b_mr s2 i) o_seq = seqno (b_disk s i)).
    { rewrite X. destruct (D i) as [L B]. rewrite get64_fld.
      rewrite (ms_fld' BS SS posix swap HS) by (try apply bytes_zeroed; try (rewrite length_zeroed; lia); auto; unfold is_fld, o_seq; lia).
      unfold MetaSpec.seqno, o_seq. rewrite (zeroed_fld BS SS HS) by (auto; lia). reflexivity. }
    rewrite Q in E.
    set (s3 := if b_seq s2 <? seqno (b_disk s i) then bset_seq s2 (seqno (b_disk s i)) else s2) in E.
    assert (S3 : b_seq s3 = N.max (b_seq s) (seqno (b_disk s i)) /\ b_disk s3 = b_disk s /\ b_mnt s3 = b_mnt s /\ b_cur s3 = i /\ b_mr s3 = b_mr s2).
    { unfold s3. rewrite P2. cbn [b_seq s1 bset_mr]. change (b_seq s1) with (b_seq s). destruct (N.ltb_spec (b_seq s) (seqno (b_disk s i))); cbn;
        rewrite ?P1, ?P2, ?P3, ?C; repeat split; try reflexivity; change (b_seq s1) with (b_seq s); lia. }
    destruct S3 as (S3a & S3b & S3c & S3d & S3e). unfold SeqNumIncrement in E. rewrite S3a in E.
    destruct (N.eqb_spec (N.max (b_seq s) (seqno (b_disk s i))) UINT64_MAX) as [Z|Z]; injection E as <- <-.
    + cbn. split; auto. split; auto. right. eauto.
    + cbn [b_disk b_mr b_mnt b_ro b_cur b_seq bset_seq updb]. split; auto. exists i. rewrite S3d, S3e.
      destruct (D i) as [L B].
      assert (MM : members posix false (b_mr s2 i) = members posix swap (b_disk s i)).
      { rewrite X. rewrite (ms_members' BS SS posix swap HS) by (try apply bytes_zeroed; try (rewrite length_zeroed; lia); auto).
        now rewrite (zeroed_members BS SS posix HS). }
      do 2 (split; [auto|]). split.
      { intros j. unfold updb. destruct i, j; cbn; auto. }
      do 3 (split; [auto|]). split; lia.
  - destruct P4 as (-> & P4). injection E as <- <-. split; [exact P1|]. split; [exact P3|]. left. split; auto.
    destruct P4 as [P4|(A & i & P4)]; [left|right; split; auto; exists i]; intros; now rewrite <- M.
Qed.

(** A metaroot that is not valid is never used: with no valid metaroot the volume does not mount. *)
Theorem C04_no_metaroot ro s r s' :
  blocks_ok (b_disk s) -> mount ro (Ok tt) (Ok tt) s = (r, s') ->
  (forall i, ~ usable (b_disk s i)) -> r = Err EIO /\ b_mnt s' = b_mnt s.
Proof.
  intros D E N. destruct (C04_mount _ _ _ _ D E) as (_ & H). destruct r as [u|e].
  - destruct H as (i & U & _). now apply N in U.
  - destruct H as (M & [[-> _]|(-> & i & U & _)]); auto. now apply N in U.
Qed.
(** One valid metaroot is enough.  If the configuration promises atomic sector writes, the other
    block must have a valid first sector (see C04_torn: a torn write has one). *)
Theorem C04_one_metaroot ro s r s' i :
  blocks_ok (b_disk s) -> mount ro (Ok tt) (Ok tt) s = (r, s') ->
  usable (b_disk s i) -> (atom = true -> sector_ok (b_disk s (negb i))) ->
  b_seq s < UINT64_MAX -> (forall j, seqno (b_disk s j) < UINT64_MAX) ->
  r = Ok tt /\ (~ usable (b_disk s (negb i)) -> forall j, members posix false (b_mr s' j) = members posix swap (b_disk s i)).
Proof.
  intros D E U A Q1 Q2. destruct (C04_mount _ _ _ _ D E) as (_ & H). destruct r as [[]|e].
  - split; auto. intros N. destruct H as (k & U' & _ & M & _). destruct (Bool.bool_dec k i) as [->|K]; auto.
    assert (k = negb i) by (destruct k, i; auto; contradiction). subst k. contradiction.
  - exfalso. destruct H as (_ & [[_ [N|(A' & k & N)]]|(_ & k & U' & Z)]).
    + now apply (N i).
    + apply N. destruct (Bool.bool_dec k i) as [->|K]; [exact (proj1 U)|].
      assert (k = negb i) by (destruct k, i; auto; contradiction). subst k. auto.
    + specialize (Q2 k). lia.
Qed.
(** Failing reads fail the mount. *)
Theorem C04_read_error ro s e0 e1 r s' :
  mount ro e0 e1 s = (r, s') -> (e0 <> Ok tt \/ e1 <> Ok tt) ->
  (exists e, r = Err e /\ (e0 = Err e \/ e1 = Err e)) /\ b_mnt s' = b_mnt s.
Proof.
  unfold RedVolMountMetaroot. intros E H. destruct e0 as [[]|e]; [|injection E as <- <-; eauto].
  destruct e1 as [[]|e]; [|injection E as <- <-; eauto]. destruct H; contradiction.
Qed.

(** What a transaction point leaves on the device and in memory, whatever the outcome of the flushes
    and of the write. *)
Theorem C04_transact f1 f2 w s r s' :
  blocks_ok (b_mr s) -> b_seq s < UINT64_MAX -> transact f1 f2 w s = (r, s') ->
  let i := b_cur s in
  exists new,
    length new = BS /\ bytes_ok new /\ usable new /\ seqno new = b_seq s
    /\ members posix swap new = members posix false (b_mr s i)
    /\ b_disk s' (negb i) = b_disk s (negb i) /\ b_seq s' = b_seq s + 1 /\ b_mnt s' = b_mnt s
    /\ match r with
       | Ok _ => f1 = Ok tt /\ w = None /\ f2 = Ok tt
           /\ b_disk s' i = new /\ b_cur s' = negb i /\ b_ro s' = b_ro s
           /\ forall j, members posix false (b_mr s' j) = members posix false (b_mr s i)
       | Err e => b_ro s' = true /\ b_cur s' = i /\
           (f1 = Err e /\ b_disk s' i = b_disk s i
            \/ f1 = Ok tt /\ (exists y, w = Some (e, y) /\ b_disk s' i = y)
            \/ f1 = Ok tt /\ w = None /\ f2 = Err e /\ b_disk s' i = new)
       end.
Proof.
  intros D Q E i. destruct (D i) as [L B]. unfold RedVolTransact in E. fold i in E.
  change (put64 (put32 (b_mr s i) o_sig META_SIG_METAROOT) o_seq (b_seq s)) with (hdr (b_seq s) (b_mr s i)) in E.
  destruct (hdr_ok BS SS HS (b_seq s) (b_mr s i) B L) as [BH LH].
  unfold SeqNumIncrement in E. cbn [b_seq bset_mr] in E. destruct (N.eqb_spec (b_seq s) UINT64_MAX); [lia|].
  cbn [b_mr b_seq b_cur bset_mr bset_seq] in E. change (b_cur s) with i in E.
  assert (UB : forall {A} (f : bool -> A) j x, updb f j x j = x) by (intros; unfold updb; now rewrite Bool.eqb_reflx).
  assert (UO : forall {A} (f : bool -> A) j x, updb f j x (negb j) = f (negb j)) by (intros ? ? [|] ?; reflexivity).
  rewrite UB in E.
  destruct (seal_spec BS SS posix swap atom HS (b_seq s) (hdr (b_seq s) (b_mr s i)) BH LH ltac:(lia)) as (S1 & S2 & S3 & S4 & S5).
  set (new := mr_seal BS SS posix swap (b_seq s) (hdr (b_seq s) (b_mr s i))) in *.
  assert (S6 : members posix swap new = members posix false (b_mr s i)).
  { rewrite S5. now apply (hdr_members BS SS posix HS). }
  exists new. do 5 (split; [assumption|]).
  destruct f1 as [[]|e1].
  2:{ injection E as <- <-. cbn. fold i. do 3 (split; [reflexivity|]). auto. }
  destruct w as [[e2 y]|].
  { injection E as <- <-. cbn. fold i. rewrite UO. do 3 (split; [reflexivity|]). do 2 (split; [reflexivity|]). right; left. rewrite UB. eauto. }
  destruct f2 as [[]|e3]; injection E as <- <-; cbn; fold i; rewrite UO, ?UB; do 3 (split; [reflexivity|]).
  - do 6 (split; [reflexivity|]). intros j.
    assert (MM : members posix false (mswap posix swap new) = members posix false (b_mr s i)).
    { rewrite (ms_members' BS SS posix swap HS) by auto. exact S6. }
    unfold updb. destruct i, j; cbn; exact MM.
  - auto 10.
Qed.

(** After a successful transaction point, mounting finds exactly what was committed. *)
Theorem C04_commit s s1 t ro r t' :
  blocks_ok (b_mr s) -> blocks_ok (b_disk s) -> b_seq s < UINT64_MAX ->
  (usable (b_disk s (negb (b_cur s))) -> seqno (b_disk s (negb (b_cur s))) < b_seq s) ->
  (atom = true -> sector_ok (b_disk s (negb (b_cur s)))) ->
  transact (Ok tt) (Ok tt) None s = (Ok tt, s1) ->
  b_disk t = b_disk s1 -> b_seq t < UINT64_MAX ->
  mount ro (Ok tt) (Ok tt) t = (r, t') ->
  r = Ok tt /\ forall j, members posix false (b_mr t' j) = members posix false (b_mr s (b_cur s)).
Proof.
  intros D1 D2 Q O A T DT QT E. destruct (C04_transact _ _ _ _ _ _ D1 Q T) as (new & L & B & U & SQ & M & DO & _ & _ & _ & _ & _ & DI & _).
  assert (TI : b_disk t (b_cur s) = new) by (now rewrite DT).
  assert (TN : b_disk t (negb (b_cur s)) = b_disk s (negb (b_cur s))) by (rewrite DT; auto).
  assert (DD : blocks_ok (b_disk t)).
  { intros k. destruct (Bool.bool_dec k (b_cur s)) as [->|K]; [rewrite TI; auto|].
    replace k with (negb (b_cur s)) by (destruct k, (b_cur s); auto; contradiction). rewrite TN. apply D2. }
  destruct (C04_mount _ _ _ _ DD E) as (_ & H). destruct r as [[]|e].
  - split; auto. destruct H as (k & U' & LT & MM & _). rewrite <- M. rewrite <- TI.
    destruct (Bool.bool_dec k (b_cur s)) as [->|K]; auto.
    assert (k = negb (b_cur s)) by (destruct k, (b_cur s); auto; contradiction). subst k. exfalso.
    rewrite Bool.negb_involutive, TN, TI in LT. rewrite TN in U'. specialize (LT U). specialize (O U'). lia.
  - exfalso. destruct H as (_ & [[_ [N|(A' & k & N)]]|(_ & k & U' & Z)]).
    + apply (N (b_cur s)). now rewrite TI.
    + apply N. destruct (Bool.bool_dec k (b_cur s)) as [->|K]; [rewrite TI; exact (proj1 U)|].
      replace k with (negb (b_cur s)) by (destruct k, (b_cur s); auto; contradiction). rewrite TN. auto.
    + assert (seqno (b_disk t k) < UINT64_MAX).
      { destruct (Bool.bool_dec k (b_cur s)) as [->|K]; [rewrite TI; lia|].
        assert (k = negb (b_cur s)) by (destruct k, (b_cur s); auto; contradiction). subst k. rewrite TN in *. specialize (O U'). lia. }
      lia.
Qed.

(** the first sector decides about the header *)
Lemma first_sector x y : length x = BS -> length y = BS -> at_ x 0 SS = at_ y 0 SS ->
  (forall i, (i < SS)%nat -> nth i x 0 = nth i y 0) /\
  (forall off n, (off + n <= SS)%nat -> fld swap x off n = fld swap y off n) /\ (sector_ok x -> sector_ok y).
Proof.
  intros LX LY E.
  assert (P : forall i, (i < SS)%nat -> nth i x 0 = nth i y 0).
  { intros i Hi. pose proof (nth_getb x 0 SS i Hi) as X. pose proof (nth_getb y 0 SS i Hi) as Y. cbn [Nat.add] in X, Y.
    rewrite <- X, <- Y. change getb with at_. now rewrite E. }
  assert (F : forall off n, (off + n <= SS)%nat -> fld swap x off n = fld swap y off n).
  { intros off n H. apply fld_at. apply getb_nth; [lia|]. intros i Hi. apply P. lia. }
  split; auto. split; auto. intros [S1 S2]. split; [rewrite <- F by lia; auto|]. rewrite <- F, S2 by lia. f_equal.
  apply getb_nth. { rewrite !length_zeroed; lia. } intros i Hi. rewrite !nth_zeroed by lia. rewrite P by lia. reflexivity.
Qed.
Lemma torn_first old new t : torn SS old new t -> at_ t 0 SS = at_ old 0 SS \/ at_ t 0 SS = at_ new 0 SS.
Proof. intros [_ H]. exact (H 0%nat). Qed.
(** A torn write of one metaroot over another has a valid first sector if both had. *)
Theorem C04_torn_sector old new t :
  length old = BS -> length new = BS -> torn SS old new t -> sector_ok old -> sector_ok new -> sector_ok t.
Proof.
  intros LO LN T SO SN. assert (LT : length t = BS) by (destruct T; lia).
  destruct (torn_first _ _ _ T) as [E|E]; symmetry in E.
  - now apply (first_sector old t LO LT E).
  - now apply (first_sector new t LN LT E).
Qed.

(** Power loss during the write of a metaroot: the block written to is a mixture of old and new
    sectors, the other block is the committed metaroot.  Mounting succeeds and finds the committed
    state, or the new state if the write had in fact been completed; the only other possibility is a
    mixture which carries the new first sector, differs from the new metaroot, and happens to have
    the same checksum.  The old contents of the block must have been a valid metaroot, older than the
    committed one, as is the case unless an earlier write was torn; see C04_double_tear_refuted. *)
Theorem C04_torn f1 f2 w s r s' t ro r2 t' :
  let i := b_cur s in let old := b_disk s i in let com := b_disk s (negb i) in
  blocks_ok (b_mr s) -> blocks_ok (b_disk s) -> b_seq s < UINT64_MAX ->
  usable com -> seqno com < b_seq s ->
  usable old -> seqno old < seqno com ->
  transact f1 f2 w s = (r, s') ->
  exists new, usable new /\ members posix swap new = members posix false (b_mr s i) /\
  (blocks_ok (b_disk t) -> torn SS old new (b_disk t i) -> b_disk t (negb i) = com -> b_seq t < UINT64_MAX ->
   mount ro (Ok tt) (Ok tt) t = (r2, t') ->
   r2 = Ok tt /\
   ((forall j, members posix false (b_mr t' j) = members posix swap com)
    \/ b_disk t i = new /\ (forall j, members posix false (b_mr t' j) = members posix swap new)
    \/ b_disk t i <> new /\ at_ (b_disk t i) 0 SS = at_ new 0 SS
       /\ checksum (skipn 8 (zeroed (b_disk t i))) = checksum (skipn 8 (zeroed new)))).
Proof.
  intros i old com D1 D2 Q UC QC UO OO T. destruct (C04_transact _ _ _ _ _ _ D1 Q T) as (new & L & B & U & SQ & M & _).
  exists new. split; auto. split; auto. intros DT TO TC QT E.
  assert (LO : length old = BS) by apply D2.
  assert (ST : sector_ok (b_disk t i)) by exact (C04_torn_sector old new _ LO L TO (proj1 UO) (proj1 U)).
  assert (LT : length (b_disk t i) = BS) by apply DT.
  assert (SN : seqno (b_disk t i) = seqno old \/ seqno (b_disk t i) = seqno new).
  { destruct (torn_first _ _ _ TO) as [F|F]; [left|right].
    - destruct (first_sector _ _ LT LO F) as (_ & X & _). apply X. lia.
    - destruct (first_sector _ _ LT L F) as (_ & X & _). apply X. lia. }
  destruct (C04_mount _ _ _ _ DT E) as (_ & H). destruct r2 as [[]|e].
  - split; auto. destruct H as (k & U' & LE & MM & _).
    destruct (Bool.bool_dec k i) as [->|K].
    + rewrite TC in LE. specialize (LE UC).
      destruct (torn_first _ _ _ TO) as [F|F].
      * exfalso. destruct (first_sector _ _ LT LO F) as (_ & X & _).
        assert (Z : seqno (b_disk t i) = seqno old) by (apply X; lia). rewrite Z in LE.
        lia.
      * destruct (list_eq_dec N.eq_dec (b_disk t i) new) as [EQ|NE]; [right; left; split; auto; intros; rewrite MM; congruence|].
        right; right. split; auto. split; auto. destruct (first_sector _ _ LT L F) as (_ & X & _).
        destruct U' as [_ U']. rewrite <- U'. destruct U as [_ U]. rewrite <- U. apply X. lia.
    + left. replace k with (negb i) in MM by (destruct k, i; auto; contradiction). rewrite TC in MM. exact MM.
  - exfalso. destruct H as (_ & [[_ [N|(A' & k & N)]]|(_ & k & U' & Z)]).
    + apply (N (negb i)). now rewrite TC.
    + apply N. destruct (Bool.bool_dec k i) as [->|K]; [exact ST|].
      replace k with (negb i) by (destruct k, i; auto; contradiction). rewrite TC. apply UC.
    + destruct (Bool.bool_dec k i) as [->|K].
      * destruct SN as [SN|SN]; rewrite SN in Z; lia.
      * assert (k = negb i) by (destruct k, i; auto; contradiction). subst k. rewrite TC in Z. lia.
Qed.

Lemma fld_inj x y off n : length x = BS -> length y = BS -> bytes_ok x -> bytes_ok y -> (off + n <= BS)%nat ->
  fld swap x off n = fld swap y off n -> at_ x off n = at_ y off n.
Proof.
  intros LX LY BX BY O F. unfold fld in F.
  assert (LA : length (at_ x off n) = n) by (apply length_getb; lia).
  assert (LB : length (at_ y off n) = n) by (apply length_getb; lia).
  assert (BA : bytes_ok (at_ x off n)) by (now apply bytes_getb). assert (BB : bytes_ok (at_ y off n)) by (now apply bytes_getb).
  destruct swap.
  - apply (f_equal (le_bytes n)) in F. rewrite <- LA in F at 1. rewrite <- (rev_length (at_ x off n)) in F.
    rewrite le_bytes_of_le in F by (now apply rev_bytes_ok). rewrite <- LB in F at 2. rewrite <- (rev_length (at_ y off n)) in F.
    rewrite le_bytes_of_le in F by (now apply rev_bytes_ok). apply (f_equal (@rev N)) in F. now rewrite !rev_involutive in F.
  - apply (f_equal (le_bytes n)) in F. rewrite <- LA in F at 1. rewrite le_bytes_of_le in F by auto.
    rewrite <- LB in F at 2. rewrite le_bytes_of_le in F by auto. exact F.
Qed.

(** Corruption is noticed: a valid metaroot of which up to 32 consecutive bits were changed, outside
    the two checksum fields, is not valid any more ... *)
Theorem C04_corruption x y p :
  length x = BS -> length y = BS -> bytes_ok x -> bytes_ok y -> usable x -> x <> y ->
  (forall k, k < p \/ p + 32 <= k -> buf_bit x k = buf_bit y k) ->
  at_ x 4 4 = at_ y 4 4 -> at_ x 16 4 = at_ y 16 4 ->
  ~ usable y.
Proof.
  intros LX LY BX BY [[SX _] CX] NE W E4 E16 [[SY _] CY].
  assert (C : checksum (skipn 8 (zeroed x)) = checksum (skipn 8 (zeroed y))).
  { rewrite <- CX, <- CY. now apply fld_at. }
  assert (ZX := bytes_zeroed x BX). assert (ZY := bytes_zeroed y BY).
  assert (AT : forall o n i, at_ x o n = at_ y o n -> (o <= i < o + n)%nat -> nth i x 0 = nth i y 0).
  { intros o n i E Hi. pose proof (nth_getb x o n (i - o) ltac:(lia)) as X. pose proof (nth_getb y o n (i - o) ltac:(lia)) as Y.
    replace (o + (i - o))%nat with i in X, Y by lia. rewrite <- X, <- Y. change getb with at_. now rewrite E. }
  destruct (list_eq_dec N.eq_dec (skipn 8 (zeroed x)) (skipn 8 (zeroed y))) as [EQ|NEQ].
  - apply NE. apply list_eq; [lia|]. intros i _.
    assert (S4 : at_ x 0 4 = at_ y 0 4).
    { apply fld_inj; auto; [lia|congruence]. }
    destruct (Nat.lt_ge_cases i 4); [apply (AT 0 4 i S4)%nat; lia|].
    destruct (Nat.lt_ge_cases i 8); [apply (AT 4 4 i E4)%nat; lia|].
    destruct (Nat.lt_ge_cases i 16) as [K|K].
    + assert (X : nth i (zeroed x) 0 = nth i (zeroed y) 0).
      { replace i with (8 + (i - 8))%nat by lia. rewrite <- !nth_skipn. now rewrite EQ. }
      rewrite !nth_zeroed in X by lia. revert X. cases; auto.
    + destruct (Nat.lt_ge_cases i 20); [apply (AT 16 4 i E16)%nat; lia|].
      assert (X : nth i (zeroed x) 0 = nth i (zeroed y) 0).
      { replace i with (8 + (i - 8))%nat by lia. rewrite <- !nth_skipn. now rewrite EQ. }
      rewrite !nth_zeroed in X by lia. revert X. cases; auto.
  - revert C. apply (crc_burst 0 _ _ (p - 64)); auto.
    + now apply Forall_skipn.
    + now apply Forall_skipn.
    + rewrite !skipn_length, !length_zeroed; lia.
    + intros k Hk. specialize (W (k + 8 * 8) ltac:(lia)). unfold buf_bit, nthN in *.
      rewrite N.div_add, N.mod_add in W by discriminate.
      rewrite !nth_skipn. replace (N.to_nat (k / 8 + 8)) with (8 + N.to_nat (k / 8))%nat in W by lia.
      rewrite !nth_zeroed by lia. destruct ((16 <=? 8 + N.to_nat (k / 8))%nat && (8 + N.to_nat (k / 8) <? 20)%nat); auto.
Qed.
(** ... and neither is one of which only one of the checksum fields was changed. *)
Theorem C04_corruption_crc x y off :
  length x = BS -> length y = BS -> bytes_ok x -> bytes_ok y -> usable x -> x <> y ->
  (off = 4 \/ off = 16)%nat -> (forall i, ~ (off <= i < off + 4)%nat -> nth i x 0 = nth i y 0) ->
  ~ usable y.
Proof.
  intros LX LY BX BY [[SX TX] CX] NE O W [[SY TY] CY].
  assert (Z : zeroed x = zeroed y \/ off = 4%nat).
  { destruct O as [->| ->]; auto. left. apply list_eq; [rewrite !length_zeroed; lia|]. intros i _. rewrite !nth_zeroed by lia. cases; auto; apply W; lia. }
  assert (Z8 : skipn 8 (zeroed x) = skipn 8 (zeroed y)).
  { destruct Z as [Z| ->]; [now rewrite Z|]. apply skipn_nth; [rewrite !length_zeroed; lia|]. intros i Hi. rewrite !nth_zeroed by lia. rewrite W by lia. reflexivity. }
  assert (F : at_ x off 4 = at_ y off 4).
  { apply fld_inj; auto; [lia|]. destruct O as [->| ->].
    - now rewrite CX, CY, Z8.
    - rewrite TX, TY. unfold at_. now rewrite Z8. }
  apply NE, list_eq; [lia|]. intros i _. destruct (Nat.lt_ge_cases i off); [apply W; lia|]. destruct (Nat.lt_ge_cases i (off + 4)); [|apply W; lia].
  pose proof (nth_getb x off 4 (i - off) ltac:(lia)) as X. pose proof (nth_getb y off 4 (i - off) ltac:(lia)) as Y.
  replace (off + (i - off))%nat with i in X, Y by lia. rewrite <- X, <- Y. change getb with at_. now rewrite F.
Qed.
End C04.
