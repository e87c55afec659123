(** C32 (retries) and C33 (block I/O stays inside the volume). *)
From Verif Require Import Base Geometry Bdev PropGeom.
Ltac Zify.zify_post_hook ::= idtac.

(** * The retry loop *)
Definition good (o : outcome) : Prop := match o with Good => True | Bad _ _ => False end.

(** A call that reaches the device exactly once and fails exactly when the device does. *)
Definition one_call {A} (fault : N -> outcome) (call : dev -> res A * dev) : Prop :=
  forall d, d_calls (snd (call d)) = d_calls d + 1 /\ ((exists a, fst (call d) = Ok a) <-> good (fault (d_calls d))).

Lemma good_dec o : good o \/ ~ good o.
Proof. destruct o; cbn; auto. Qed.

Lemma retry_spec {A} fault (call : dev -> res A * dev) : one_call fault call ->
  forall r, r <= 254 -> forall n i last d, i <= r -> (N.to_nat (r - i) + 2 <= n)%nat ->
  exists x d' m, retry n call r i last d = Some (x, d') /\ 1 <= m <= r - i + 1 /\ d_calls d' = d_calls d + m
   /\ (forall j, j + 1 < m -> ~ good (fault (d_calls d + j)))
   /\ ((exists a, x = Ok a) <-> good (fault (d_calls d + (m - 1))))
   /\ (forall e, x = Err e -> m = r - i + 1).
Proof.
  intros OC r R. induction n as [|n IH]; intros i last d I F; [lia|]. cbn [retry].
  destruct (N.leb_spec i r) as [_|]; [|lia].
  destruct (OC d) as (C & G). destruct (call d) as [[a|e] d1] eqn:E; cbn [fst snd] in *.
  - exists (Ok a), d1, 1. repeat split; auto; try lia.
    + intros _. replace (d_calls d + (1 - 1)) with (d_calls d) by lia. apply G. eauto.
    + intros. eauto.
    + discriminate.
  - assert (NG : ~ good (fault (d_calls d))). { intros H. apply G in H as (a & H). discriminate. }
    replace (u8 (i + 1)) with (i + 1) by (unfold u8; symmetry; apply N.mod_small; lia).
    destruct (N.eq_dec i r) as [->|NE].
    + destruct n as [|n]; [lia|]. cbn [retry]. destruct (N.leb_spec (r + 1) r); [lia|].
      exists (Err e), d1, 1. repeat split; auto; try lia.
      * intros (a & X); discriminate.
      * replace (d_calls d + (1 - 1)) with (d_calls d) by lia. tauto.
    + destruct (IH (i + 1) (Err e) d1 ltac:(lia) ltac:(lia)) as (x & d' & m & Q & M & DC & L & X & Y).
      exists x, d', (m + 1). rewrite Q. repeat split; auto; try lia.
      * intros j J. destruct (N.eq_dec j 0) as [-> |J0]; [now rewrite N.add_0_r|].
        replace (d_calls d + j) with (d_calls d1 + (j - 1)) by lia. apply L. lia.
      * intros H. replace (d_calls d + (m + 1 - 1)) with (d_calls d1 + (m - 1)) by lia. now apply X.
      * intros H. apply X. now replace (d_calls d1 + (m - 1)) with (d_calls d + (m + 1 - 1)) by lia.
      * intros e' H. specialize (Y e' H). lia.
Qed.

(** the retry loop never changes what a predicate on requests says *)
Lemma retry_inv {A} (P : dev -> Prop) (Q : A -> Prop) (call : dev -> res A * dev) :
  (forall d, P d -> P (snd (call d)) /\ forall a, fst (call d) = Ok a -> Q a) ->
  forall r n i last d x d', retry n call r i last d = Some (x, d') -> P d ->
  (forall a, last = Ok a -> Q a) -> P d' /\ forall a, x = Ok a -> Q a.
Proof.
  intros C r. induction n as [|n IH]; intros i last d x d' H PD L; cbn [retry] in H; [discriminate|].
  destruct (i <=? r); [|injection H as <- <-; auto].
  destruct (C d PD) as (P1 & Q1). destruct (call d) as [[a|e] d1]; cbn [fst snd] in *.
  - injection H as <- <-. split; auto.
  - eapply IH; eauto; discriminate.
Qed.

Section Io.
Variables (fault : N -> outcome) (NV : N) (conf : N -> vconf) (info : N -> bdevinfo) (geo : N -> geom) (retries : N -> N).

(** The volumes were configured, opened and their geometry computed. *)
Definition initialized (v : N) : Prop :=
  v < NV /\ vconf_typed (conf v) /\ RedVolInitGeometry (conf v) (info v) = Some (Ok (geo v)).

(** A request for [count] blocks from [block], inside the volume; the number of bytes fits in the
    uint32_t of the callers. *)
Definition request_ok (v block count : N) : Prop :=
  1 <= count /\ block + count <= ge_bc (geo v) /\ count * k_bs (conf v) <= UINT32_MAX.

Lemma io_good v block count : initialized v -> request_ok v block count ->
  io_bad NV geo v block count = false
  /\ io_start conf geo v block = k_soff (conf v) + block * 2 ^ ge_shift (geo v)
  /\ io_count geo v count = count * 2 ^ ge_shift (geo v)
  /\ RANGE_IS_VALID conf info v (io_start conf geo v block) (io_count geo v count) = true
  /\ k_soff (conf v) + block * 2 ^ ge_shift (geo v) + count * 2 ^ ge_shift (geo v) <= k_soff (conf v) + bi_scount (info v).
Proof.
  intros (V & TY & GE) (C1 & C2 & C3). pose proof (geometry_facts _ _ _ TY GE) as F.
  set (q := 2 ^ ge_shift (geo v)) in *.
  assert (BI : (block + count) * q <= bi_scount (info v)).
  { transitivity (ge_bc (geo v) * q); [apply N.mul_le_mono_r; lia|]. rewrite (gf_bc _ _ _ F). fold q.
    transitivity (bi_scount (info v) / q * q).
    - apply N.mul_le_mono_r. unfold u32. apply N.mod_le. lia.
    - rewrite N.mul_comm. apply N.mul_div_le. apply N.pow_nonzero. lia. }
  rewrite N.mul_add_distr_r in BI.
  pose proof (gf_sum _ _ _ F) as SUM. unfold UINT64_MAX in SUM.
  assert (CNT : count * q <= UINT32_MAX).
  { pose proof (gf_bs _ _ _ F) as B. fold q in B. pose proof (gf_ss _ _ _ F).
    assert (q <= k_bs (conf v)). { rewrite <- B. replace q with (1 * q) at 1 by lia. apply N.mul_le_mono_r. lia. }
    transitivity (count * k_bs (conf v)); [apply N.mul_le_mono_l; lia|exact C3]. }
  unfold UINT32_MAX in CNT.
  assert (ST : io_start conf geo v block = k_soff (conf v) + block * q).
  { unfold io_start. rewrite N.shiftl_mul_pow2. fold q. unfold u64.
    rewrite (N.mod_small (block * q)) by lia. rewrite N.mod_small by lia. lia. }
  assert (CN : io_count geo v count = count * q).
  { unfold io_count. rewrite N.shiftl_mul_pow2. fold q. unfold u32. apply N.mod_small. lia. }
  rewrite ST, CN. repeat split; try lia.
  - unfold io_bad. destruct (N.leb_spec NV v); [lia|]. destruct (N.leb_spec (ge_bc (geo v)) block); [lia|].
    destruct (N.ltb_spec (ge_bc (geo v) - block) count); [lia|]. destruct (N.eqb_spec count 0); [lia|]. reflexivity.
  - unfold RANGE_IS_VALID, SECTOR_LIMIT, u64. rewrite (N.mod_small (k_soff (conf v) + bi_scount (info v))) by lia.
    destruct (N.leb_spec (k_soff (conf v)) (k_soff (conf v) + block * q)); [|lia].
    replace (k_soff (conf v) + bi_scount (info v) + 18446744073709551616 - (k_soff (conf v) + block * q))
      with (bi_scount (info v) - block * q + 1 * 18446744073709551616) by lia.
    rewrite N.mod_add by lia. rewrite N.mod_small by lia. cbn [andb]. apply N.leb_le. lia.
Qed.

Lemma io_bad_reject v block count :
  (NV <= v \/ ge_bc (geo v) < block + count \/ count = 0) -> io_bad NV geo v block count = true.
Proof.
  intros H. unfold io_bad. destruct (N.leb_spec NV v); [reflexivity|].
  destruct (N.leb_spec (ge_bc (geo v)) block); [reflexivity|].
  destruct (N.ltb_spec (ge_bc (geo v) - block) count); [reflexivity|]. cbn [orb]. apply N.eqb_eq. lia.
Qed.

Lemma read_one v s c buf : v < NV -> RANGE_IS_VALID conf info v s c = true ->
  one_call fault (RedBDevRead fault NV conf info v s c buf).
Proof.
  intros V R d. unfold RedBDevRead. destruct (N.leb_spec NV v); [lia|]. rewrite R. cbn [negb orb].
  unfold RedOsBDevRead. destruct (fault (d_calls d)); cbn; split; auto.
  - split; eauto.
  - split; [intros (? & ?); discriminate|tauto].
Qed.
Lemma write_one v s c buf : v < NV -> RANGE_IS_VALID conf info v s c = true ->
  one_call fault (RedBDevWrite fault NV conf info v s c buf).
Proof.
  intros V R d. unfold RedBDevWrite. destruct (N.leb_spec NV v); [lia|]. rewrite R. cbn [negb orb].
  unfold RedOsBDevWrite. destruct (fault (d_calls d)); cbn; split; auto.
  - split; eauto.
  - split; [intros (? & ?); discriminate|tauto].
Qed.
Lemma flush_one v : v < NV -> one_call fault (RedBDevFlush fault NV v).
Proof.
  intros V d. unfold RedBDevFlush. destruct (N.leb_spec NV v); [lia|].
  unfold RedOsBDevFlush. cbn. split; auto. destruct (fault (d_calls d)); cbn; split; eauto; try tauto.
  intros (? & ?); discriminate.
Qed.

(** What C32 says about one call of a block I/O function: [d], [d'] the device before and after,
    [x] the result, [crit] whether the volume was made read-only. *)
Definition retried {A} (r : N) (d d' : dev) (x : res A) (crit : bool) : Prop :=
  exists m, 1 <= m <= r + 1 /\ d_calls d' = d_calls d + m
   /\ (forall j, j + 1 < m -> ~ good (fault (d_calls d + j)))                 (* all but the last failed *)
   /\ ((exists a, x = Ok a) <-> good (fault (d_calls d + (m - 1))))            (* the last decides *)
   /\ ((exists e, x = Err e) -> m = r + 1)                                     (* errors: all attempts used *)
   /\ (crit = true <-> exists e, x = Err e).

Lemma finish_spec {A} (call : dev -> res A * dev) r fuel d : one_call fault call -> r <= 254 -> (256 <= fuel)%nat ->
  exists x d' crit, finish (retry fuel call r 0 (Err EINVAL) d) = Some (x, d', crit) /\ retried r d d' x crit.
Proof.
  intros OC R F. destruct (retry_spec fault call OC r R fuel 0 (Err EINVAL) d ltac:(lia) ltac:(lia))
    as (x & d' & m & Q & M & DC & L & X & Y).
  rewrite N.sub_0_r in *. rewrite Q.
  destruct x as [a|e]; cbn [finish]; eexists _, _, _; (split; [reflexivity|]); exists m; repeat split; auto; try lia;
    try apply X; try (intros (? & ?); discriminate); try discriminate; try (intros; eauto; fail);
    try (intros (e' & H); now apply (Y e')).
Qed.

(** C32: a block read, write or flush makes at most 1 + bBlockIoRetries attempts, stops at the
    first success, and returns an error only if all of them failed.  (For bBlockIoRetries = 255
    see [C32_endless_refuted].) *)
Theorem C32_read : forall v block count buf d fuel, initialized v -> request_ok v block count ->
  retries v <= 254 -> (256 <= fuel)%nat ->
  exists x d' crit, RedIoRead fault NV conf info geo retries fuel v block count buf d = Some (x, d', crit)
                    /\ retried (retries v) d d' x crit.
Proof.
  intros v block count buf d fuel I R T F. destruct (io_good v block count I R) as (B & _ & _ & RV & _).
  unfold RedIoRead. rewrite B. apply finish_spec; auto. apply read_one; auto. apply I.
Qed.
Theorem C32_write : forall v block count buf d fuel, initialized v -> request_ok v block count ->
  retries v <= 254 -> (256 <= fuel)%nat ->
  exists x d' crit, RedIoWrite fault NV conf info geo retries fuel v block count buf d = Some (x, d', crit)
                    /\ retried (retries v) d d' x crit.
Proof.
  intros v block count buf d fuel I R T F. destruct (io_good v block count I R) as (B & _ & _ & RV & _).
  unfold RedIoWrite. rewrite B. apply finish_spec; auto. apply write_one; auto. apply I.
Qed.
Theorem C32_flush : forall v d fuel, v < NV -> retries v <= 254 -> (256 <= fuel)%nat ->
  exists x d' crit, RedIoFlush fault NV retries fuel v d = Some (x, d', crit)
                    /\ retried (retries v) d d' x crit.
Proof.
  intros v d fuel V T F. unfold RedIoFlush. destruct (N.leb_spec NV v); [lia|].
  apply finish_spec; auto. now apply flush_one.
Qed.

(** C33: a request outside the volume fails and never reaches the device. *)
Theorem C33_reject : forall v block count fuel buf d,
  (NV <= v \/ ge_bc (geo v) < block + count \/ count = 0) ->
  RedIoRead fault NV conf info geo retries fuel v block count buf d = Some (Err EINVAL, d, true)
  /\ RedIoWrite fault NV conf info geo retries fuel v block count buf d = Some (Err EINVAL, d, true).
Proof.
  intros v block count fuel buf d H. unfold RedIoRead, RedIoWrite. rewrite io_bad_reject by auto. now split.
Qed.

(** Where a byte of the volume lives on the media: byte [x] of block [b] of volume [v]. *)
Definition byte_at (v b x : N) : N := k_soff (conf v) * bi_ssize (info v) + b * k_bs (conf v) + x.

Lemma start_bytes v block : initialized v ->
  (k_soff (conf v) + block * 2 ^ ge_shift (geo v)) * bi_ssize (info v) = byte_at v block 0.
Proof.
  intros (_ & TY & GE). pose proof (gf_bs _ _ _ (geometry_facts _ _ _ TY GE)) as B. unfold byte_at.
  rewrite N.mul_add_distr_r, <- B, <- N.mul_assoc, (N.mul_comm (2 ^ _)). lia.
Qed.
Lemma count_bytes v count : initialized v -> count * 2 ^ ge_shift (geo v) * bi_ssize (info v) = count * k_bs (conf v).
Proof.
  intros (_ & TY & GE). pose proof (gf_bs _ _ _ (geometry_facts _ _ _ TY GE)) as B.
  rewrite <- B, <- N.mul_assoc, (N.mul_comm (2 ^ _)). reflexivity.
Qed.

(** C33: every attempt of a read asks for exactly the sectors of the blocks, inside the sectors of
    the volume; the media does not change; a successful read delivers the bytes of the blocks. *)
Theorem C33_read : forall v block count buf d fuel x d' crit, initialized v -> request_ok v block count ->
  RedIoRead fault NV conf info geo retries fuel v block count buf d = Some (x, d', crit) ->
  exists start n,
    start * bi_ssize (info v) = byte_at v block 0 /\ n * bi_ssize (info v) = count * k_bs (conf v)
    /\ k_soff (conf v) <= start /\ start + n <= k_soff (conf v) + bi_scount (info v) <= UINT64_MAX
    /\ (exists m, d_log d' = d_log d ++ repeat (DRead start n) m)
    /\ d_media d' = d_media d
    /\ (forall f, x = Ok f -> forall y, y < count * k_bs (conf v) -> f y = d_media d (byte_at v block 0 + y)).
Proof.
  intros v block count buf d fuel x d' crit I R H. destruct (io_good v block count I R) as (B & ST & CN & RV & IN).
  unfold RedIoRead in H. rewrite B in H.
  set (start := io_start conf geo v block) in *. set (n := io_count geo v count) in *.
  assert (K : (exists m, d_log d' = d_log d ++ repeat (DRead start n) m) /\ d_media d' = d_media d /\
     forall f, x = Ok f -> forall y, y < n * bi_ssize (info v) -> f y = d_media d (start * bi_ssize (info v) + y)).
  { destruct (retry fuel _ _ _ _ d) as [[x0 d0]|] eqn:Q; [|discriminate].
    assert (EQ : x0 = x /\ d0 = d'). { destruct x0; cbn in H; injection H as <- <- _; auto. }
    destruct EQ as (-> & ->). clear H.
    eapply (retry_inv (fun z => (exists m, d_log z = d_log d ++ repeat (DRead start n) m) /\ d_media z = d_media d)
       (fun f => forall y, y < n * bi_ssize (info v) -> f y = d_media d (start * bi_ssize (info v) + y))) in Q.
    - destruct Q as ((L & M) & A). auto.
    - intros z ((m & L) & M). unfold RedBDevRead. destruct I as (V & _). destruct (N.leb_spec NV v); [lia|].
      rewrite RV. cbn [negb orb]. unfold RedOsBDevRead.
      assert (X : exists m0, d_log z ++ [DRead start n] = d_log d ++ repeat (DRead start n) m0).
      { exists (m + 1)%nat. rewrite L, repeat_app, app_assoc. reflexivity. }
      destruct (fault (d_calls z)); cbn [fst snd called d_log d_media]; (split; [split; assumption|]).
      + intros f E. injection E as <-. intros y Y. apply N.ltb_lt in Y. now rewrite Y, M.
      + discriminate.
    - split; auto. exists 0%nat. now rewrite app_nil_r.
    - discriminate. }
  exists start, n. destruct K as (K1 & K2 & K3).
  assert (SB : start * bi_ssize (info v) = byte_at v block 0) by (rewrite ST; now apply start_bytes).
  assert (NB : n * bi_ssize (info v) = count * k_bs (conf v)) by (rewrite CN; now apply count_bytes).
  rewrite <- SB, <- NB. repeat split; auto; try lia.
  destruct I as (_ & TY & GE). apply (gf_sum _ _ _ (geometry_facts _ _ _ TY GE)).
Qed.

(** C33: every attempt of a write addresses exactly the sectors of the blocks, inside the sectors of
    the volume; no other byte of the media changes, whatever fails; a successful write stores the buffer. *)
Theorem C33_write : forall v block count buf d fuel x d' crit, initialized v -> request_ok v block count ->
  RedIoWrite fault NV conf info geo retries fuel v block count buf d = Some (x, d', crit) ->
  exists start n,
    start * bi_ssize (info v) = byte_at v block 0 /\ n * bi_ssize (info v) = count * k_bs (conf v)
    /\ k_soff (conf v) <= start /\ start + n <= k_soff (conf v) + bi_scount (info v) <= UINT64_MAX
    /\ (exists m, d_log d' = d_log d ++ repeat (DWrite start n) m)
    /\ (forall a, a < byte_at v block 0 \/ byte_at v (block + count) 0 <= a -> d_media d' a = d_media d a)
    /\ (x = Ok tt -> forall y, y < count * k_bs (conf v) -> d_media d' (byte_at v block 0 + y) = buf y).
Proof.
  intros v block count buf d fuel x d' crit I R H. destruct (io_good v block count I R) as (B & ST & CN & RV & IN).
  unfold RedIoWrite in H. rewrite B in H.
  set (start := io_start conf geo v block) in *. set (n := io_count geo v count) in *.
  set (z := bi_ssize (info v)) in *.
  assert (K : (exists m, d_log d' = d_log d ++ repeat (DWrite start n) m) /\
     (forall a, a < start * z \/ (start + n) * z <= a -> d_media d' a = d_media d a) /\
     (x = Ok tt -> forall a, start * z <= a < (start + n) * z -> d_media d' a = buf (a - start * z))).
  { destruct (retry fuel _ _ _ _ d) as [[x0 d0]|] eqn:Q; [|discriminate].
    assert (EQ : x0 = x /\ d0 = d'). { destruct x0; cbn in H; injection H as <- <- _; auto. }
    destruct EQ as (-> & ->). clear H.
    assert (GEN : forall k i last d1 x1 d1', retry k (RedBDevWrite fault NV conf info v start n buf) (retries v) i last d1 = Some (x1, d1') ->
      last <> Ok tt ->
      (exists m, d_log d1 = d_log d ++ repeat (DWrite start n) m) ->
      (forall a, a < start * z \/ (start + n) * z <= a -> d_media d1 a = d_media d a) ->
      (exists m, d_log d1' = d_log d ++ repeat (DWrite start n) m) /\
      (forall a, a < start * z \/ (start + n) * z <= a -> d_media d1' a = d_media d a) /\
      (x1 = Ok tt -> forall a, start * z <= a < (start + n) * z -> d_media d1' a = buf (a - start * z))).
    { induction k as [|k IH]; intros i last d1 x1 d1' E LA (m & L) M; cbn [retry] in E; [discriminate|].
      destruct (i <=? retries v).
      2:{ injection E as <- <-. split; [eauto|]. split; [auto|]. congruence. }
      unfold RedBDevWrite at 1 in E. destruct I as (V & I'). destruct (N.leb_spec NV v); [lia|].
      rewrite RV in E. cbn [negb orb] in E. unfold RedOsBDevWrite in E.
      assert (X : exists m0, d_log d1 ++ [DWrite start n] = d_log d ++ repeat (DWrite start n) m0).
      { exists (m + 1)%nat. rewrite L, repeat_app, app_assoc. reflexivity. }
      assert (O : forall bb a, a < start * z \/ (start + n) * z <= a -> put_sectors z start n bb (d_media d1) a = d_media d a).
      { intros bb a A. unfold put_sectors. destruct (N.leb_spec (start * z) a); cbn [andb]; auto.
        destruct (N.ltb_spec a ((start + n) * z)); auto. lia. }
      destruct (fault (d_calls d1)) as [|e j].
      - injection E as <- <-. cbn [called d_log d_media]. split; [assumption|]. split; [auto|].
        intros _ a (A1 & A2). unfold put_sectors. apply N.leb_le in A1. apply N.ltb_lt in A2. fold z.
        now rewrite A1, A2.
      - eapply IH in E; [exact E| discriminate | exact X | intros; now apply O]. }
    eapply GEN; [exact Q|discriminate|exists 0%nat; now rewrite app_nil_r|auto]. }
  exists start, n. destruct K as (K1 & K2 & K3).
  assert (SB : start * z = byte_at v block 0) by (rewrite ST; now apply start_bytes).
  assert (NB : n * z = count * k_bs (conf v)) by (rewrite CN; now apply count_bytes).
  assert (EB : (start + n) * z = byte_at v (block + count) 0).
  { rewrite N.mul_add_distr_r, SB, NB. unfold byte_at. rewrite N.mul_add_distr_r. lia. }
  rewrite <- SB, <- NB, <- EB in *. repeat split; auto; try lia.
  - destruct I as (_ & TY & GE). apply (gf_sum _ _ _ (geometry_facts _ _ _ TY GE)).
  - intros E y Y. rewrite K3; auto; [f_equal; lia|]. split; [lia|]. rewrite N.mul_add_distr_r. lia.
Qed.
(** C33, the sector layer on its own: a request that begins before the first sector of the volume, or
    begins in the volume and goes beyond its last sector, fails and never reaches the device. *)
Theorem C33_sectors : forall v start count buf d, initialized v ->
  (start < k_soff (conf v)
   \/ (start <= k_soff (conf v) + bi_scount (info v) /\ k_soff (conf v) + bi_scount (info v) < start + count)) ->
  RedBDevRead fault NV conf info v start count buf d = (Err EINVAL, d)
  /\ RedBDevWrite fault NV conf info v start count buf d = (Err EINVAL, d).
Proof.
  intros v start count buf d (V & TY & GE) H. unfold RedBDevRead, RedBDevWrite.
  assert (L : SECTOR_LIMIT (conf v) (info v) = k_soff (conf v) + bi_scount (info v)
              /\ k_soff (conf v) + bi_scount (info v) <= UINT64_MAX).
  { pose proof (gf_sum _ _ _ (geometry_facts _ _ _ TY GE)) as S. split; auto.
    unfold SECTOR_LIMIT, u64. apply N.mod_small. unfold UINT64_MAX in S. lia. }
  destruct L as (L & M).
  assert (R : RANGE_IS_VALID conf info v start count = false).
  { unfold RANGE_IS_VALID. rewrite L. destruct H as [H|(H1 & H2)].
    - destruct (N.leb_spec (k_soff (conf v)) start); [lia|reflexivity].
    - replace (k_soff (conf v) + bi_scount (info v) + 18446744073709551616 - start)
        with ((k_soff (conf v) + bi_scount (info v) - start) + 1 * 18446744073709551616) by lia.
      unfold u64. rewrite N.mod_add by lia. unfold UINT64_MAX in M. rewrite N.mod_small by lia.
      destruct (N.leb_spec count (k_soff (conf v) + bi_scount (info v) - start)); [lia|apply andb_false_r]. }
  rewrite R. cbn [negb]. rewrite orb_true_r. now split.
Qed.
End Io.

(** * Concrete cases *)
Definition w_fault (n : N) : outcome := if n <? 2 then Bad EIO (fun _ => 255) else Good.
Definition w_conf (_ : N) := kB.
Definition w_info (_ : N) := mkBI 20971520 512.
Definition w_geo (_ : N) := match RedVolInitGeometry kB (mkBI 20971520 512) with Some (Ok g) => g | _ => mkGeom 0 0 true 0 0 0 0 0 end.
Definition w_dev := mkDev (fun _ => 0) [] 0.
Example C32_C33_witness : initialized 1 w_conf w_info w_geo 0 /\ request_ok w_conf w_geo 0 7 2.
Proof.
  split; [|vm_compute; repeat split; intros; discriminate].
  split; [reflexivity|]. split; [apply C14_witness_external|]. vm_compute. reflexivity.
Qed.
(** Two failures and a success: three attempts with 3 retries, an error with 1. *)
Example C32_example : exists d2,
  RedIoWrite w_fault 1 w_conf w_info w_geo (fun _ => 3) 256 0 7 2 (fun x => x mod 251) w_dev = Some (Ok tt, d2, false)
  /\ d_log d2 = [DWrite 56 16; DWrite 56 16; DWrite 56 16] /\ d_media d2 (28672 + 5) = 5 /\ d_media d2 (28672 - 1) = 0
  /\ match RedIoWrite w_fault 1 w_conf w_info w_geo (fun _ => 1) 256 0 7 2 (fun x => x mod 251) w_dev with
     | Some (Err EIO, d3, true) => d_calls d3 = 2 | _ => False end.
Proof. eexists. split; [vm_compute; reflexivity|]. vm_compute. auto. Qed.

(** * What is not true (findings) *)
(** With bBlockIoRetries = 255 the uint8_t loop index never exceeds the limit: on a device that
    keeps failing the call never returns. *)
Lemma endless {A} (call : dev -> res A * dev) : (forall d, exists e d', call d = (Err e, d')) ->
  forall n i last d, i <= 255 -> retry n call 255 i last d = None.
Proof.
  intros C. induction n as [|n IH]; intros i last d I; [reflexivity|]. cbn [retry].
  destruct (N.leb_spec i 255); [|lia]. destruct (C d) as (e & d' & ->). apply IH.
  unfold u8. pose proof (N.mod_lt (i + 1) 256 ltac:(lia)). lia.
Qed.
Example C32_endless_refuted : forall fuel,
  RedIoFlush (fun _ => Bad EIO (fun _ => 0)) 1 (fun _ => 255) fuel 0 w_dev = None.
Proof.
  intros fuel. unfold RedIoFlush. change (1 <=? 0) with false. cbv iota. rewrite endless; [reflexivity| |lia].
  intros d. eexists _, _. reflexivity.
Qed.
(** VOLUME_SECTOR_RANGE_IS_VALID accepts a start behind the end of the volume: the subtraction wraps. *)
Example C33_range_check_refuted :
  RANGE_IS_VALID w_conf w_info 0 (20971520 + 1) 16 = true.
Proof. reflexivity. Qed.
(** The number of sectors of a request of 2^29 blocks of 4096 bytes wraps to 0: the request "succeeds"
    without any transfer. *)
Definition x_info := mkBI 34359738368 512.
Definition x_geo (_ : N) := mkGeom 3 4294967295 false 3 131072 262147 262149 4294705146.
Example C33_count_wrap_refuted : io_bad 1 x_geo 0 1 536870912 = false /\ io_count x_geo 0 536870912 = 0.
Proof. now split. Qed.
