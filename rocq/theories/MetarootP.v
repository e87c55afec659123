(** Lemmas about Metaroot.v. *)
From Verif Require Import Base Endian Crc Cache Metaroot.
Ltac Zify.zify_post_hook ::= idtac.

Lemma nth_skipn {A} off i (x : list A) d : nth i (skipn off x) d = nth (off + i) x d.
Proof. revert x; induction off; intros; auto. destruct x; [destruct i; reflexivity|]. cbn. apply IHoff. Qed.
Lemma nth_firstn {A} n i (x : list A) d : (i < n)%nat -> nth i (firstn n x) d = nth i x d.
Proof. revert i x; induction n; intros; [lia|]. destruct x; [reflexivity|]. destruct i; auto. cbn. apply IHn. lia. Qed.
Lemma nth_getb x off n i : (i < n)%nat -> nth i (getb x off n) 0 = nth (off + i) x 0.
Proof. intros. unfold getb. rewrite nth_firstn by auto. apply nth_skipn. Qed.
Lemma length_getb x off n : (off + n <= length x)%nat -> length (getb x off n) = n.
Proof. intros. unfold getb. rewrite firstn_length, skipn_length. lia. Qed.
Lemma length_putb x off y : (off + length y <= length x)%nat -> length (putb x off y) = length x.
Proof. intros. unfold putb. rewrite !app_length, firstn_length, skipn_length. lia. Qed.
Lemma nth_putb x off y i : (off + length y <= length x)%nat ->
  nth i (putb x off y) 0 = if (off <=? i)%nat && (i <? off + length y)%nat then nth (i - off) y 0 else nth i x 0.
Proof.
  intros. unfold putb. destruct (Nat.leb_spec off i); cbn [andb].
  - rewrite app_nth2; rewrite firstn_length, Nat.min_l by lia; auto. destruct (Nat.ltb_spec i (off + length y)).
    + now rewrite app_nth1 by lia.
    + rewrite app_nth2 by lia. rewrite nth_skipn. f_equal. lia.
  - rewrite app_nth1 by (rewrite firstn_length; lia). now apply nth_firstn.
Qed.
Lemma bytes_nth x : (forall i, nth i x 0 < 256) -> bytes_ok x.
Proof. intros H. apply Forall_nth. intros i d Hi. rewrite (nth_indep _ d 0) by auto. apply H. Qed.
Lemma nth_bytes x i : bytes_ok x -> nth i x 0 < 256.
Proof.
  intros H. destruct (Nat.lt_ge_cases i (length x)).
  - unfold bytes_ok in H. rewrite Forall_forall in H. apply H, nth_In; auto.
  - rewrite nth_overflow; auto; reflexivity.
Qed.
Lemma bytes_getb x off n : bytes_ok x -> bytes_ok (getb x off n).
Proof. intros. unfold getb. apply Forall_firstn, Forall_skipn, H. Qed.
Lemma bytes_putb x off y : bytes_ok x -> bytes_ok y -> bytes_ok (putb x off y).
Proof. intros. unfold putb. apply Forall_app; split; [now apply Forall_firstn|]. apply Forall_app; split; auto. now apply Forall_skipn. Qed.
Lemma list_eq (x y : list N) : length x = length y -> (forall i, (i < length x)%nat -> nth i x 0 = nth i y 0) -> x = y.
Proof. intros. eapply nth_ext; eauto. Qed.

Ltac noif a := lazymatch a with context [if _ then _ else _] => fail | _ => idtac end.
Ltac cases := repeat match goal with
  | |- context [Nat.leb ?a ?b] => noif a; noif b; destruct (Nat.leb_spec a b); cbn [andb]; try lia
  | |- context [Nat.ltb ?a ?b] => noif a; noif b; destruct (Nat.ltb_spec a b); cbn [andb]; try lia
  end.

Lemma getb_same x off y : (off + length y <= length x)%nat -> getb (putb x off y) off (length y) = y.
Proof.
  intros. apply list_eq. { apply length_getb. rewrite length_putb; auto. }
  rewrite length_getb by (rewrite length_putb; auto). intros i Hi. rewrite nth_getb, nth_putb by auto. cases; try lia. f_equal. lia.
Qed.
Lemma getb_other x off y o n : (off + length y <= length x)%nat -> (o + n <= off \/ off + length y <= o)%nat ->
  (o + n <= length x)%nat -> getb (putb x off y) o n = getb x o n.
Proof.
  intros. apply list_eq. { rewrite !length_getb; auto. rewrite length_putb; auto. }
  rewrite length_getb by (rewrite length_putb; auto). intros i Hi. rewrite !nth_getb, nth_putb by auto. cases; auto; lia.
Qed.
Lemma putb_putb x off y z : (off + length y <= length x)%nat -> length y = length z -> putb (putb x off y) off z = putb x off z.
Proof.
  intros. apply list_eq. { rewrite !length_putb; auto; rewrite ?length_putb; lia. }
  intros i Hi. rewrite !nth_putb by (rewrite ?length_putb; lia). cases; auto; lia.
Qed.
Lemma putb_comm x o1 y1 o2 y2 : (o1 + length y1 <= length x)%nat -> (o2 + length y2 <= length x)%nat ->
  (o1 + length y1 <= o2 \/ o2 + length y2 <= o1)%nat -> putb (putb x o1 y1) o2 y2 = putb (putb x o2 y2) o1 y1.
Proof.
  intros. apply list_eq. { rewrite !length_putb; auto; rewrite ?length_putb; lia. }
  intros i Hi. rewrite !nth_putb by (rewrite ?length_putb; lia). cases; auto; lia.
Qed.
Lemma putb_getb x off n : (off + n <= length x)%nat -> putb x off (getb x off n) = x.
Proof.
  intros. assert (L : length (getb x off n) = n) by (apply length_getb; auto).
  apply list_eq. { apply length_putb. lia. }
  intros i Hi. rewrite nth_putb by lia. rewrite L. cases; auto; try lia. rewrite nth_getb by lia. f_equal. lia.
Qed.

Lemma le4 v : length (le_bytes 4 v) = 4%nat. Proof. apply le_bytes_length. Qed.
Lemma le8 v : length (le_bytes 8 v) = 8%nat. Proof. apply le_bytes_length. Qed.
Lemma of4 x off : bytes_ok x -> (off + 4 <= length x)%nat -> le_bytes 4 (get32 x off) = getb x off 4.
Proof. intros. unfold get32. rewrite <- (length_getb x off 4) at 1 by auto. apply le_bytes_of_le. now apply bytes_getb. Qed.
Lemma of8 x off : bytes_ok x -> (off + 8 <= length x)%nat -> le_bytes 8 (get64 x off) = getb x off 8.
Proof. intros. unfold get64. rewrite <- (length_getb x off 8) at 1 by auto. apply le_bytes_of_le. now apply bytes_getb. Qed.
Lemma get32_lt x off : bytes_ok x -> (off + 4 <= length x)%nat -> get32 x off < 2 ^ 32.
Proof. intros. pose proof (of_le_bytes_lt (getb x off 4) (bytes_getb _ _ _ H)) as L. rewrite length_getb in L by auto. exact L. Qed.
Lemma get64_lt x off : bytes_ok x -> (off + 8 <= length x)%nat -> get64 x off < 2 ^ 64.
Proof. intros. pose proof (of_le_bytes_lt (getb x off 8) (bytes_getb _ _ _ H)) as L. rewrite length_getb in L by auto. exact L. Qed.

Lemma rev32_bytes x off : bytes_ok x -> (off + 4 <= length x)%nat -> rev32_at off x = putb x off (rev (getb x off 4)).
Proof.
  intros. unfold rev32_at, put32. f_equal. rewrite RedRev32_reverse by (apply get32_lt; auto).
  rewrite (le_bytes_byte_reverse 4). now rewrite of4.
Qed.
Lemma rev64_bytes x off : bytes_ok x -> (off + 8 <= length x)%nat -> rev64_at off x = putb x off (rev (getb x off 8)).
Proof.
  intros. unfold rev64_at, put64. f_equal. rewrite RedRev64_reverse by (apply get64_lt; auto).
  rewrite (le_bytes_byte_reverse 8). now rewrite of8.
Qed.
Lemma length_rev32 x off : (off + 4 <= length x)%nat -> length (rev32_at off x) = length x.
Proof. intros. apply length_putb. rewrite le4. auto. Qed.
Lemma length_rev64 x off : (off + 8 <= length x)%nat -> length (rev64_at off x) = length x.
Proof. intros. apply length_putb. rewrite le8. auto. Qed.
Lemma bytes_rev32 x off : bytes_ok x -> bytes_ok (rev32_at off x).
Proof. intros. apply bytes_putb; auto. apply le_bytes_ok. Qed.
Lemma bytes_rev64 x off : bytes_ok x -> bytes_ok (rev64_at off x).
Proof. intros. apply bytes_putb; auto. apply le_bytes_ok. Qed.
Lemma nth_rev32 x off i : bytes_ok x -> (off + 4 <= length x)%nat ->
  nth i (rev32_at off x) 0 = nth (if (off <=? i)%nat && (i <? off + 4)%nat then 2 * off + 3 - i else i) x 0.
Proof.
  intros. rewrite rev32_bytes by auto.
  assert (L : length (getb x off 4) = 4%nat) by (apply length_getb; auto).
  rewrite nth_putb by (rewrite rev_length; lia). rewrite rev_length, L. cases; auto.
  rewrite rev_nth by lia. rewrite L, nth_getb by lia. f_equal. lia.
Qed.
Lemma nth_rev64 x off i : bytes_ok x -> (off + 8 <= length x)%nat ->
  nth i (rev64_at off x) 0 = nth (if (off <=? i)%nat && (i <? off + 8)%nat then 2 * off + 7 - i else i) x 0.
Proof.
  intros. rewrite rev64_bytes by auto.
  assert (L : length (getb x off 8) = 8%nat) by (apply length_getb; auto).
  rewrite nth_putb by (rewrite rev_length; lia). rewrite rev_length, L. cases; auto.
  rewrite rev_nth by lia. rewrite L, nth_getb by lia. f_equal. lia.
Qed.

(** where byte [i] of a swapped metaroot comes from *)
Definition sigma (posix : bool) (i : nat) : nat :=
  if (i <? 4)%nat then (3 - i)%nat
  else if (i <? 8)%nat then i
  else if (i <? 16)%nat then (23 - i)%nat
  else if (i <? 20)%nat then (35 - i)%nat
  else if (i <? 24)%nat then (43 - i)%nat
  else if (i <? 28)%nat then (51 - i)%nat
  else if posix && (i <? 32)%nat then (59 - i)%nat
  else i.
Section P.
Variable posix : bool.
Notation SW := (MetaRootEndianSwap posix).
Lemma length_swap x : (32 <= length x)%nat -> length (SW x) = length x.
Proof.
  intros. unfold MetaRootEndianSwap, o_sig, o_seq, o_scrc, o_free, o_freei, o_next.
  destruct posix; rewrite ?length_rev32, ?length_rev64; rewrite ?length_rev32, ?length_rev64; rewrite ?length_rev32, ?length_rev64;
    rewrite ?length_rev32, ?length_rev64; rewrite ?length_rev32, ?length_rev64; rewrite ?length_rev32, ?length_rev64; auto; lia.
Qed.
Lemma bytes_swap x : bytes_ok x -> bytes_ok (SW x).
Proof. intros. unfold MetaRootEndianSwap. destruct posix; repeat first [apply bytes_rev32|apply bytes_rev64]; auto. Qed.
Lemma nth_swap x i : bytes_ok x -> (32 <= length x)%nat -> nth i (SW x) 0 = nth (sigma posix i) x 0.
Proof.
  intros B L. unfold MetaRootEndianSwap, o_sig, o_seq, o_scrc, o_free, o_freei, o_next.
  assert (B1 := bytes_rev32 x 0 B). assert (L1 : length (rev32_at 0 x) = length x) by (apply length_rev32; lia). 
  set (x1 := rev32_at 0 x) in *.
  assert (B2 := bytes_rev64 x1 8 B1). assert (L2 : length (rev64_at 8 x1) = length x) by (rewrite length_rev64; lia). 
  set (x2 := rev64_at 8 x1) in *.
  assert (B3 := bytes_rev32 x2 16 B2). assert (L3 : length (rev32_at 16 x2) = length x) by (rewrite length_rev32; lia). 
  set (x3 := rev32_at 16 x2) in *.
  assert (B4 := bytes_rev32 x3 20 B3). assert (L4 : length (rev32_at 20 x3) = length x) by (rewrite length_rev32; lia). 
  set (x4 := rev32_at 20 x3) in *.
  assert (N1 : forall j, nth j x4 0 = nth (if (j <? 4)%nat then (3 - j)%nat else if (j <? 8)%nat then j
    else if (j <? 16)%nat then (23 - j)%nat else if (j <? 20)%nat then (35 - j)%nat else if (j <? 24)%nat then (43 - j)%nat else j) x 0).
  { intros j. unfold x4. rewrite nth_rev32 by (auto; lia). unfold x3. rewrite nth_rev32 by (auto; lia).
    unfold x2. rewrite nth_rev64 by (auto; lia). unfold x1. rewrite nth_rev32 by (auto; lia). f_equal.
    clear. cases; lia. }
  unfold sigma. destruct posix; cbn [andb].
  - rewrite nth_rev32 by (try apply bytes_rev32; auto; rewrite length_rev32; lia). rewrite nth_rev32 by (auto; lia).
    rewrite N1. f_equal. clear. cases; lia.
  - rewrite nth_rev32 by (auto; lia). rewrite N1. f_equal. clear. cases; lia.
Qed.
Lemma sigma_inv i : sigma posix (sigma posix i) = i.
Proof. unfold sigma. destruct posix; cbn [andb]; cases; lia. Qed.
Lemma sigma_lt i n : (32 <= n)%nat -> (i < n)%nat -> (sigma posix i < n)%nat.
Proof. unfold sigma. intros. destruct posix; cbn [andb]; cases; lia. Qed.
Lemma swap_swap x : bytes_ok x -> (32 <= length x)%nat -> SW (SW x) = x.
Proof.
  intros. apply list_eq. { rewrite !length_swap; auto. rewrite length_swap; auto. }
  intros i _. rewrite nth_swap by (auto using bytes_swap; rewrite length_swap; auto). rewrite nth_swap by auto. now rewrite sigma_inv.
Qed.
End P.

From Verif Require Import MetaSpec.
Lemma zeroed_put x : zeroed x = put32 x o_scrc 0.
Proof. reflexivity. Qed.
Lemma length_zeroed x : (20 <= length x)%nat -> length (zeroed x) = length x.
Proof. intros. rewrite zeroed_put. apply length_putb. rewrite le4. unfold o_scrc. lia. Qed.
Lemma bytes_zeroed x : bytes_ok x -> bytes_ok (zeroed x).
Proof. intros. rewrite zeroed_put. apply bytes_putb; auto. apply le_bytes_ok. Qed.
Lemma nth_zeroed x i : (20 <= length x)%nat -> nth i (zeroed x) 0 = if (16 <=? i)%nat && (i <? 20)%nat then 0 else nth i x 0.
Proof.
  intros. rewrite zeroed_put. unfold put32, o_scrc. rewrite nth_putb by (rewrite le4; lia). rewrite le4.
  cases; auto. destruct (i - 16)%nat as [|[|[|[|j]]]] eqn:E; try reflexivity. lia.
Qed.

Lemma fld_lt big x off n : bytes_ok x -> fld big x off n < 256 ^ N.of_nat n.
Proof.
  intros. unfold fld, at_. eapply N.lt_le_trans.
  - apply of_le_bytes_lt. destruct big; [apply rev_bytes_ok|]; now apply bytes_getb.
  - apply N.pow_le_mono_r; [lia|]. destruct big; rewrite ?rev_length, firstn_length; lia.
Qed.
Lemma rev4 v : v < 2 ^ 32 -> RedRev32 v = of_le_bytes (rev (le_bytes 4 v)).
Proof. intros. now rewrite RedRev32_reverse. Qed.
Lemma rev8 v : v < 2 ^ 64 -> RedRev64 v = of_le_bytes (rev (le_bytes 8 v)).
Proof. intros. now rewrite RedRev64_reverse. Qed.
Lemma w32_fld swap x off : bytes_ok x -> (off + 4 <= length x)%nat -> w32 swap (get32 x off) = fld swap x off 4.
Proof.
  intros. unfold w32, fld. destruct swap; [|reflexivity].
  rewrite rev4 by (apply get32_lt; auto). now rewrite of4.
Qed.
Lemma get32_fld x off : get32 x off = fld false x off 4. Proof. reflexivity. Qed.
Lemma get64_fld x off : get64 x off = fld false x off 8. Proof. reflexivity. Qed.
Lemma w32_lt swap v : v < 2 ^ 32 -> w32 swap v < 2 ^ 32.
Proof. intros. destruct swap; auto. cbn. rewrite RedRev32_reverse by auto. apply (byte_reverse_lt 4). Qed.
Lemma w32_inv swap v : v < 2 ^ 32 -> w32 swap (w32 swap v) = v.
Proof. intros. destruct swap; auto. cbn. now apply RedRev32_involutive. Qed.
Lemma checksum_lt x : bytes_ok x -> checksum x < 2 ^ 32.
Proof. intros. apply crc_lt; auto. reflexivity. Qed.
(** loads after stores *)
Lemma get32_put32 x off v : (off + 4 <= length x)%nat -> v < 2 ^ 32 -> get32 (put32 x off v) off = v.
Proof.
  intros. unfold get32, put32. rewrite <- (le4 v) at 2. rewrite getb_same by (rewrite le4; auto).
  now apply of_le_bytes_le.
Qed.
Lemma fld_other big x off y o n : (off + length y <= length x)%nat -> (o + n <= off \/ off + length y <= o)%nat ->
  (o + n <= length x)%nat -> fld big (putb x off y) o n = fld big x o n.
Proof. intros. unfold fld. change (at_ ?a ?b ?c) with (getb a b c). now rewrite getb_other. Qed.
Lemma fld_at big x y o n : at_ x o n = at_ y o n -> fld big x o n = fld big y o n.
Proof. intros. unfold fld. now rewrite H. Qed.
Lemma skipn_nth (x y : list N) n : length x = length y -> (forall i, (n <= i)%nat -> nth i x 0 = nth i y 0) -> skipn n x = skipn n y.
Proof. intros. apply list_eq. { rewrite !skipn_length. lia. } intros i _. rewrite !nth_skipn. apply H0. lia. Qed.
Lemma getb_nth (x y : list N) o n : length x = length y -> (forall i, (o <= i < o + n)%nat -> nth i x 0 = nth i y 0) -> getb x o n = getb y o n.
Proof.
  intros. unfold getb. apply list_eq. { rewrite !firstn_length, !skipn_length. lia. }
  rewrite firstn_length. intros i Hi. rewrite !nth_firstn, !nth_skipn by lia. apply H0. lia.
Qed.
Lemma skipn_putb x off y n : (off + length y <= length x)%nat -> (off + length y <= n)%nat -> skipn n (putb x off y) = skipn n x.
Proof. intros. apply skipn_nth. { now apply length_putb. } intros. rewrite nth_putb by auto. cases; auto. Qed.

Lemma skipn_more (x : list N) n m : (n <= m)%nat -> skipn m x = skipn (m - n) (skipn n x).
Proof. intros. apply list_eq. { rewrite !skipn_length. lia. } intros i _. rewrite !nth_skipn. f_equal. lia. Qed.

Section Q.
Variable BS SS : nat.
Variable posix swap atom : bool.
Hypothesis HS : (32 <= SS <= BS)%nat.
Notation MS := (mswap posix swap).
Lemma length_ms x : length x = BS -> length (MS x) = BS.
Proof. intros. unfold mswap. destruct swap; auto. rewrite length_swap; lia. Qed.
Lemma bytes_ms x : bytes_ok x -> bytes_ok (MS x).
Proof. intros. unfold mswap. destruct swap; auto. now apply bytes_swap. Qed.
Lemma ms_ms x : bytes_ok x -> length x = BS -> MS (MS x) = x.
Proof. intros. unfold mswap. destruct swap; auto. apply swap_swap; auto; lia. Qed.

(** members of a swapped metaroot *)
Definition is_fld (off n : nat) : Prop :=
  (off = 0 /\ n = 4 \/ off = 8 /\ n = 8 \/ off = 16 /\ n = 4 \/ off = 20 /\ n = 4 \/ off = 24 /\ n = 4 \/ (off = 28 /\ n = 4 /\ posix = true))%nat.
Lemma ms_at x off n : bytes_ok x -> length x = BS -> is_fld off n ->
  at_ (MS x) off n = if swap then rev (at_ x off n) else at_ x off n.
Proof.
  intros B L F. unfold mswap. destruct swap; [|reflexivity]. change at_ with getb.
  assert (O : (off + n <= BS)%nat) by (unfold is_fld in F; lia).
  assert (LG : length (getb x off n) = n) by (apply length_getb; lia).
  apply list_eq. { rewrite rev_length, !length_getb; rewrite ?length_swap; lia. }
  rewrite length_getb by (rewrite length_swap; lia). intros i Hi.
  rewrite nth_getb, nth_swap by (auto; lia). rewrite rev_nth by lia. rewrite LG, nth_getb by lia. f_equal.
  unfold sigma. unfold is_fld in F. destruct posix; cbn [andb]; cases; lia.
Qed.
Lemma ms_fld x off n : bytes_ok x -> length x = BS -> is_fld off n -> fld swap (MS x) off n = fld false x off n.
Proof. intros. unfold fld. rewrite ms_at by auto. destruct swap; auto. now rewrite rev_involutive. Qed.
Lemma ms_fld' x off n : bytes_ok x -> length x = BS -> is_fld off n -> fld false (MS x) off n = fld swap x off n.
Proof. intros. unfold fld. rewrite ms_at by auto. reflexivity. Qed.
Lemma ms_rest x n : bytes_ok x -> length x = BS -> (o_ent posix <= n)%nat -> skipn n (MS x) = skipn n x.
Proof.
  intros B L H. unfold mswap. destruct swap; auto. apply skipn_nth. { rewrite length_swap; lia. }
  intros i Hi. rewrite nth_swap by (auto; lia). f_equal. unfold sigma, o_ent in *. destruct posix; cbn [andb]; cases.
Qed.
Lemma ms_members x : bytes_ok x -> length x = BS -> members posix swap (MS x) = members posix false x.
Proof.
  intros B L. unfold members. rewrite !ms_fld; auto; unfold is_fld; auto 10.
  rewrite (ms_rest x (if posix then 32 else 28)%nat) by auto. destruct posix; rewrite ?ms_fld; unfold is_fld; auto 10.
  destruct posix; auto 10.
Qed.
Lemma ms_members' x : bytes_ok x -> length x = BS -> members posix false (MS x) = members posix swap x.
Proof.
  intros B L. rewrite <- (ms_ms x) at 2 by auto. symmetry. rewrite ms_members; auto using bytes_ms, length_ms.
Qed.
Lemma zeroed_members big x : length x = BS -> members posix big (zeroed x) = members posix big x.
Proof.
  intros L. rewrite zeroed_put. unfold members, put32, o_scrc.
  rewrite !fld_other by (rewrite ?le4; destruct posix; lia).
  rewrite skipn_putb by (rewrite ?le4; destruct posix; lia). reflexivity.
Qed.
Lemma zeroed_fld big x off n : length x = BS -> (off + n <= 16 \/ 20 <= off)%nat -> (off + n <= BS)%nat -> fld big (zeroed x) off n = fld big x off n.
Proof. intros. rewrite zeroed_put. unfold put32, o_scrc. apply fld_other; rewrite ?le4; lia. Qed.

(** the two-step checksum is the checksum of everything *)
Lemma crc_split x : length x = BS -> crc32 (crc32 0 (getb x 8 (SS - 8))) (getb x SS (BS - SS)) = checksum (skipn 8 x).
Proof.
  intros L. unfold crc32, checksum. rewrite <- crc_compose. f_equal. unfold getb.
  rewrite (firstn_all2 (n := (BS - SS)%nat)) by (rewrite skipn_length; lia).
  rewrite (skipn_more x 8 SS) by lia. apply firstn_skipn.
Qed.

Lemma valid_spec x : bytes_ok x -> length x = BS ->
  let '(v, s, y) := MetarootIsValid BS SS swap x in
  (v = true <-> usable SS swap x) /\ (s = true <-> sector_ok SS swap x) /\ (v = true -> y = zeroed x).
Proof.
  intros B L. unfold MetarootIsValid. rewrite w32_fld by (auto; unfold o_sig; lia).
  unfold usable, sector_ok. change META_SIG_METAROOT with 1096041805.
  destruct (N.eqb_spec (fld swap x o_sig 4) 1096041805) as [E|E]; cbn [negb].
  2:{ repeat split; intros; try discriminate; tauto. }
  rewrite w32_fld by (auto; unfold o_scrc; lia). rewrite <- zeroed_put.
  assert (BZ := bytes_zeroed x B). assert (LZ : length (zeroed x) = BS) by (rewrite length_zeroed; lia).
  change (crc32 0 (getb (zeroed x) 8 (SS - 8))) with (checksum (at_ (zeroed x) 8 (SS - 8))) at 1.
  destruct (N.eqb_spec (checksum (at_ (zeroed x) 8 (SS - 8))) (fld swap x o_scrc 4)) as [E2|E2].
  2:{ unfold o_sig, o_scrc in *. repeat split; intros; try discriminate; try tauto; destruct H; try destruct H; congruence. }
  rewrite crc_split by auto.
  assert (K : w32 swap (checksum (skipn 8 (zeroed x))) =? get32 (zeroed x) o_crc = true <-> fld swap x 4 4 = checksum (skipn 8 (zeroed x))).
  { rewrite N.eqb_eq. rewrite <- (zeroed_fld swap x 4 4) by lia. rewrite <- w32_fld by (auto; lia). unfold o_crc.
    assert (C := checksum_lt (skipn 8 (zeroed x)) (Forall_skipn _ _ _ BZ)).
    assert (G := get32_lt (zeroed x) 4 BZ ltac:(lia)).
    split; intros H; [rewrite <- H|rewrite <- H]; now rewrite w32_inv. }
  rewrite K. unfold o_sig, o_scrc in *. split; [|split]; auto; intuition congruence.
Qed.

Notation VALID := (usable SS swap).
Definition hdr (q : N) (x : list N) : list N := put64 (put32 x o_sig META_SIG_METAROOT) o_seq q.
Lemma hdr_ok q x : bytes_ok x -> length x = BS -> bytes_ok (hdr q x) /\ length (hdr q x) = BS.
Proof.
  intros. unfold hdr, put64, put32, o_sig, o_seq. split.
  - repeat apply bytes_putb; auto; apply le_bytes_ok.
  - rewrite !length_putb; rewrite ?le4, ?le8; rewrite ?length_putb; rewrite ?le4; lia.
Qed.
Lemma put_put z c sc c' sc' : (20 <= length z)%nat ->
  put32 (put32 (put32 (put32 z o_crc c) o_scrc sc) o_crc c') o_scrc sc' = put32 (put32 z o_crc c') o_scrc sc'.
Proof.
  intros L. unfold put32, o_crc, o_scrc.
  assert (L1 : forall v, length (putb z 4 (le_bytes 4 v)) = length z) by (intros; apply length_putb; rewrite le4; lia).
  assert (L2 : length (putb (putb z 4 (le_bytes 4 c)) 16 (le_bytes 4 sc)) = length z) by (rewrite length_putb; rewrite ?le4, ?L1; lia).
  rewrite (putb_comm _ 16) by (rewrite ?le4, ?L1; lia).
  rewrite (putb_putb z 4) by (rewrite ?le4; auto; lia).
  rewrite (putb_putb _ 16) by (rewrite ?le4, ?L1; auto; lia). reflexivity.
Qed.
Lemma seal_form q x : bytes_ok x -> length x = BS ->
  let z := zeroed (MS (hdr q x)) in
  mr_seal BS SS posix swap q x
  = put32 (put32 z o_crc (w32 swap (checksum (skipn 8 z)))) o_scrc (w32 swap (checksum (at_ z 8 (SS - 8)))).
Proof.
  intros B L z. unfold mr_seal. fold (hdr q x). rewrite <- (zeroed_put (MS (hdr q x))). fold z.
  destruct (hdr_ok q x B L) as [BH LH].
  assert (BZ : bytes_ok z) by (apply bytes_zeroed, bytes_ms; auto).
  assert (LZ : length z = BS) by (unfold z; rewrite length_zeroed; rewrite length_ms; auto; lia).
  change (crc32 0 (getb z 8 (SS - 8))) with (checksum (at_ z 8 (SS - 8))).
  assert (C : (if (SS <? BS)%nat then crc32 (checksum (at_ z 8 (SS - 8))) (getb z SS (BS - SS)) else checksum (at_ z 8 (SS - 8))) = checksum (skipn 8 z)).
  { rewrite <- (crc_split z LZ). destruct (Nat.ltb_spec SS BS); [reflexivity|].
    replace (BS - SS)%nat with 0%nat by lia. unfold crc32, getb, RedCrc32Update_bitwise. cbn [firstn fold_left]. now rewrite !not32_inv. }
  rewrite C. destruct swap; [|reflexivity].
  assert (CL := checksum_lt (skipn 8 z) (Forall_skipn _ _ _ BZ)).
  assert (SL := checksum_lt (at_ z 8 (SS - 8)) (bytes_getb _ _ _ BZ)).
  set (c := checksum (skipn 8 z)) in *. set (sc := checksum (at_ z 8 (SS - 8))) in *.
  set (u := put32 (put32 z o_crc c) o_scrc sc).
  assert (LU : length u = BS) by (unfold u, put32; rewrite !length_putb; rewrite ?le4; rewrite ?length_putb; rewrite ?le4; unfold o_crc, o_scrc; lia).
  assert (G4 : get32 u o_crc = c).
  { unfold u. rewrite get32_fld. unfold put32 at 1. rewrite fld_other by (rewrite ?le4; unfold put32; rewrite ?length_putb; rewrite ?le4; unfold o_crc, o_scrc; lia).
    rewrite <- get32_fld. apply get32_put32; auto. unfold o_crc. lia. }
  rewrite G4.
  assert (G16 : get32 (put32 u o_crc (RedRev32 c)) o_scrc = sc).
  { rewrite get32_fld. unfold put32 at 1. rewrite fld_other by (rewrite ?le4; unfold o_crc, o_scrc; lia).
    rewrite <- get32_fld. unfold u. apply get32_put32; auto. unfold put32. rewrite length_putb; rewrite ?le4; unfold o_crc, o_scrc; lia. }
  rewrite G16. cbn [w32]. unfold u. apply put_put. lia.
Qed.
Lemma hdr_fld big q x off n : bytes_ok x -> length x = BS -> (16 <= off)%nat -> (off + n <= BS)%nat -> fld big (hdr q x) off n = fld big x off n.
Proof. intros. unfold hdr, put64, put32, o_sig, o_seq. rewrite !fld_other; rewrite ?length_putb; rewrite ?le4, ?le8; try lia; auto. Qed.
Lemma hdr_members q x : bytes_ok x -> length x = BS -> members posix false (hdr q x) = members posix false x.
Proof.
  intros. unfold members. rewrite !hdr_fld by (auto; destruct posix; lia).
  unfold hdr, put64, put32, o_sig, o_seq. rewrite !skipn_putb; rewrite ?length_putb; rewrite ?le4, ?le8; try (destruct posix; lia). reflexivity.
Qed.

Lemma seal_spec q x : bytes_ok x -> length x = BS -> q <= UINT64_MAX ->
  let y := mr_seal BS SS posix swap q x in
  length y = BS /\ bytes_ok y /\ VALID y /\ seqno swap y = q /\ members posix swap y = members posix false x.
Proof.
  intros B L Hq. cbv zeta. rewrite seal_form by auto. set (m := hdr q x). set (z := zeroed (MS m)).
  destruct (hdr_ok q x B L) as [BH LH]. fold m in BH, LH.
  assert (BZ : bytes_ok z) by (apply bytes_zeroed, bytes_ms; auto).
  assert (LM : length (MS m) = BS) by (apply length_ms; auto).
  assert (LZ : length z = BS) by (unfold z; rewrite length_zeroed; lia).
  assert (CL := checksum_lt (skipn 8 z) (Forall_skipn _ _ _ BZ)).
  assert (SL := checksum_lt (at_ z 8 (SS - 8)) (bytes_getb _ _ _ BZ)).
  set (c := checksum (skipn 8 z)) in *. set (sc := checksum (at_ z 8 (SS - 8))) in *.
  set (z1 := put32 z o_crc (w32 swap c)).
  assert (L1 : length z1 = BS) by (unfold z1, put32; rewrite length_putb; rewrite ?le4; unfold o_crc; lia).
  set (y := put32 z1 o_scrc (w32 swap sc)).
  assert (LY : length y = BS) by (unfold y, put32; rewrite length_putb; rewrite ?le4; unfold o_scrc; lia).
  assert (B1 : bytes_ok z1) by (apply bytes_putb; auto; apply le_bytes_ok).
  assert (BY : bytes_ok y) by (apply bytes_putb; auto; apply le_bytes_ok).
  assert (FY : forall big off n, (off + n <= 4 \/ 8 <= off /\ off + n <= 16 \/ 20 <= off)%nat -> (off + n <= BS)%nat -> fld big y off n = fld big (MS m) off n).
  { intros big off n H1 H2. unfold y, put32. rewrite fld_other by (rewrite ?le4; unfold o_scrc; lia).
    unfold z1, put32. rewrite fld_other by (rewrite ?le4; unfold o_crc; lia). apply (zeroed_fld big (MS m)); auto; lia. }
  assert (ZY : skipn 8 (zeroed y) = skipn 8 z).
  { apply skipn_nth. { rewrite length_zeroed; lia. } intros i Hi. rewrite nth_zeroed by lia.
    unfold z. rewrite nth_zeroed by lia. cases; auto;
    (unfold y, put32; rewrite nth_putb by (rewrite le4; unfold o_scrc; lia); rewrite le4; unfold o_scrc; cases; unfold z1, put32; rewrite nth_putb by (rewrite le4; unfold o_crc; lia); rewrite le4; unfold o_crc; cases; unfold z; rewrite nth_zeroed by lia; cases; auto). }
  assert (AY : at_ (zeroed y) 8 (SS - 8) = at_ z 8 (SS - 8)) by (unfold at_; now rewrite ZY).
  assert (H16 : fld swap y 16 4 = sc).
  { rewrite <- w32_fld by (auto; lia). unfold y. change 16%nat with o_scrc. rewrite get32_put32 by (try apply w32_lt; auto; unfold o_scrc; lia). now apply w32_inv. }
  assert (H4 : fld swap y 4 4 = c).
  { unfold y, put32. rewrite fld_other by (rewrite ?le4; unfold o_scrc; lia). rewrite <- w32_fld by (auto; lia).
    assert (G : get32 z1 4 = w32 swap c) by (apply (get32_put32 z 4); [lia|now apply w32_lt]).
    rewrite G. now apply w32_inv. }
  assert (M0 : fld false m 0 4 = META_SIG_METAROOT).
  { unfold m, hdr, put64. rewrite fld_other by (unfold put32; rewrite ?length_putb; rewrite ?le4, ?le8; unfold o_seq, o_sig; lia).
    exact (get32_put32 x 0 META_SIG_METAROOT ltac:(lia) eq_refl). }
  assert (M8 : fld false m 8 8 = q).
  { unfold m, hdr, put64, fld, o_seq. change (at_ ?a ?b ?k) with (getb a b k). rewrite <- (le8 q) at 2.
    assert (LP : length (put32 x o_sig META_SIG_METAROOT) = BS) by (unfold put32; rewrite length_putb; rewrite ?le4; unfold o_sig; lia).
    rewrite getb_same by (rewrite le8, LP; lia). rewrite le8.
    apply of_le_bytes_le. unfold UINT64_MAX in Hq. change (256 ^ N.of_nat 8) with 18446744073709551616. lia. }
  split; [auto|]. split; [auto|]. split.
  { split.
    - split.
      + rewrite FY by lia. rewrite ms_fld by (auto; unfold is_fld; lia). exact M0.
      + rewrite AY. exact H16.
    - rewrite ZY. exact H4. }
  split.
  { unfold seqno. rewrite FY by lia. rewrite ms_fld by (auto; unfold is_fld; lia). exact M8. }
  rewrite <- (hdr_members q x B L). fold m. rewrite <- (ms_members m) by auto. unfold members.
  rewrite !FY by (destruct posix; lia).
  assert (SK : forall k, (20 <= k)%nat -> skipn k y = skipn k (MS m)).
  { intros k Hk. unfold y, put32. rewrite skipn_putb by (rewrite le4; unfold o_scrc; lia).
    unfold z1, put32. rewrite skipn_putb by (rewrite le4; unfold o_crc; lia). unfold z. rewrite zeroed_put. unfold put32.
    rewrite skipn_putb by (rewrite le4; unfold o_scrc; lia). reflexivity. }
  rewrite SK by (destruct posix; lia). reflexivity.
Qed.
End Q.
