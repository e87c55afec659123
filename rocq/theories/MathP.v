(** Proofs about Math.v. *)
From Verif Require Import Base Math.
Ltac Zify.zify_post_hook ::= idtac.

Definition T32 : N := 4294967296.
Definition T64 : N := 18446744073709551616.
Lemma u32_lt n : u32 n < T32. Proof. unfold u32, T32. apply N.mod_lt. discriminate. Qed.
Lemma u32_id n : n < T32 -> u32 n = n. Proof. unfold u32, T32. apply N.mod_small. Qed.
Lemma u64_id n : n < T64 -> u64 n = n. Proof. unfold u64, T64. apply N.mod_small. Qed.
Lemma u64_lt n : u64 n < T64. Proof. unfold u64, T64. apply N.mod_lt. discriminate. Qed.
Lemma u8_id n : n < 256 -> u8 n = n. Proof. unfold u8. apply N.mod_small. Qed.
(** Subtraction as written in the model. *)
Lemma sub64 a b : b <= a -> a < T64 -> u64 (a + 18446744073709551616 - b) = a - b.
Proof.
  unfold u64, T64. intros H L. replace (a + 18446744073709551616 - b) with ((a - b) + 1 * 18446744073709551616) by lia.
  rewrite N.mod_add by discriminate. apply N.mod_small. lia.
Qed.
Lemma shr n k : N.shiftr n k = n / 2 ^ k. Proof. apply N.shiftr_div_pow2. Qed.
Lemma shl n k : N.shiftl n k = n * 2 ^ k. Proof. apply N.shiftl_mul_pow2. Qed.
Lemma div_unique' a b q r : r < b -> a = q * b + r -> a / b = q /\ a mod b = r.
Proof. intros H E. split; symmetry; [apply (N.div_unique a b q r)|apply (N.mod_unique a b q r)]; lia. Qed.
Lemma dm a b : b <> 0 -> a = (a / b) * b + a mod b /\ a mod b < b.
Proof. intros H. split; [rewrite N.mul_comm; apply N.div_mod; auto|apply N.mod_lt; auto]. Qed.

(** ** 64 by 32 bits *)
Lemma sub_loop_ok d : 0 < d -> d < T32 -> forall fuel hi lo this, hi < T32 -> lo < T32 ->
  hi * T32 + lo < (N.of_nat fuel + 1) * d -> this + (hi * T32 + lo) / d < T32 ->
  exists lo' this', sub_loop fuel d hi lo this = Some (lo', this') /\ lo' < T32 /\
    hi * T32 + lo = (this' - this) * d + lo' /\ this <= this' /\ this' + lo' / d < T32.
Proof.
  intros D0 D1. induction fuel as [|n IH]; intros hi lo this H1 H2 H3 H4; cbn [sub_loop].
  - assert (hi = 0). { unfold T32 in *. cbn [N.of_nat] in H3. nia. } subst hi. change (0 =? 0) with true. exists lo, this. rewrite N.mul_0_l, N.add_0_l in *. repeat split; auto; lia.
  - destruct (N.eqb_spec hi 0) as [->|NZ].
    + exists lo, this. rewrite N.mul_0_l, N.add_0_l in *. repeat split; auto; lia.
    + set (x := hi * T32 + lo) in *.
      assert (X0 : T32 <= x) by (unfold x, T32; nia).
      assert (X1 : x < T64) by (unfold x, T32, T64 in *; nia).
      assert (E : u64 (u64 (N.shiftl hi 32 + lo) + 18446744073709551616 - d) = x - d).
      { rewrite shl. change (2 ^ 32) with T32. fold x. rewrite (u64_id x) by auto. apply sub64; lia. }
      rewrite E. rewrite shr. change (2 ^ 32) with T32.
      pose proof (dm (x - d) T32 ltac:(discriminate)) as (DM1 & DM2).
      assert (Q1 : (x - d) / T32 < T32). { apply N.div_lt_upper_bound; [discriminate|]. unfold T32, T64 in *. lia. }
      rewrite (u32_id ((x - d) / T32)) by auto.
      assert (DQ : x / d = (x - d) / d + 1).
      { replace x with ((x - d) + 1 * d) at 1 by lia. rewrite N.div_add by lia. lia. }
      assert (T1 : this + 1 + (x - d) / d < T32) by (rewrite DQ in H4; clear - H4; revert H4; generalize ((x - d) / d); intros; lia).
      assert (T2 : this + 1 < T32) by (clear - T1; revert T1; generalize ((x - d) / d); intros; lia).
      rewrite (u32_id (this + 1)) by exact T2. change (u32 (x - d)) with ((x - d) mod T32).
      destruct (IH ((x - d) / T32) ((x - d) mod T32) (this + 1)) as (lo' & this' & R & A1 & A2 & A3 & A4); auto.
      * rewrite <- DM1. rewrite Nat2N.inj_succ, <- N.add_1_r, N.mul_add_distr_r, N.mul_1_l in H3. revert H3. generalize ((N.of_nat n + 1) * d). intros. lia.
      * rewrite <- DM1. exact T1.
      * rewrite <- DM1 in A2. exists lo', this'. split; [exact R|]. split; [exact A1|].
        assert (DX : d <= x) by lia. split.
        { clear - A2 A3 DX. replace (this' - this) with (this' - (this + 1) + 1) by lia. rewrite N.mul_add_distr_r, N.mul_1_l.
          revert A2. generalize ((this' - (this + 1)) * d). intros. lia. }
        split; [lia|auto].
Qed.
Lemma lor_byte r b : b < 256 -> N.lor (r * 256) b = r * 256 + b.
Proof.
  intros H. rewrite <- N.lxor_lor, <- N.add_nocarry_lxor; auto.
  all: apply N.bits_inj_0; intros i; rewrite N.land_spec; destruct (N.lt_ge_cases i 8) as [L|L].
  1,3: change 256 with (2 ^ 8); rewrite N.mul_pow2_bits_low by auto; reflexivity.
  all: destruct (N.eq_dec b 0) as [->|NZ]; [rewrite N.bits_0; apply andb_false_r|].
  all: rewrite (N.bits_above_log2 b i); [apply andb_false_r|]; apply N.log2_lt_pow2; [lia|]; eapply N.lt_le_trans; [exact H|]; change 256 with (2 ^ 8); apply N.pow_le_mono_r; auto; discriminate.
Qed.
(** One byte: with [x = rem * 256 + next]. *)
Lemma div_byte_ok d next q rem : 0 < d -> d < T32 -> next < 256 -> rem < d -> q < 16777216 ->
  div_byte d next (q, rem) = Some (q * 256 + (rem * 256 + next) / d, (rem * 256 + next) mod d) /\ (rem * 256 + next) / d < 256.
Proof.
  intros D0 D1 NX RM QL. set (x := rem * 256 + next).
  assert (XD : x / d < 256). { apply N.div_lt_upper_bound; [lia|]. unfold x. nia. }
  split; auto. unfold div_byte. rewrite shr, shl. change (2 ^ 24) with 16777216. change (2 ^ 8) with 256.
  assert (E1 : N.lor (u32 (rem * 256)) next = (rem mod 16777216) * 256 + next).
  { unfold u32. change 4294967296 with (16777216 * 256). rewrite N.mul_mod_distr_r by discriminate. apply lor_byte. auto. }
  rewrite E1. pose proof (dm rem 16777216 ltac:(discriminate)) as (DM1 & DM2).
  assert (XE : rem / 16777216 * T32 + (rem mod 16777216 * 256 + next) = x). { unfold x, T32. rewrite DM1 at 3. lia. }
  destruct (sub_loop_ok d D0 D1 256 (rem / 16777216) (rem mod 16777216 * 256 + next) 0) as (lo & this & R & A1 & A2 & A3 & A4).
  - apply N.div_lt_upper_bound; [discriminate|]. unfold T32 in *. lia.
  - unfold T32. lia.
  - rewrite XE. change (N.of_nat 256) with 256. unfold x. nia.
  - rewrite XE. unfold T32. lia.
  - rewrite R. rewrite XE in A2. rewrite N.sub_0_r in A2.
    pose proof (dm lo d ltac:(lia)) as (L1 & L2).
    destruct (div_unique' x d (this + lo / d) (lo mod d) L2) as (Q1 & Q2); [rewrite A2; rewrite L1 at 1; lia|].
    rewrite (u32_id (this + lo / d)) by auto. rewrite <- Q1. rewrite shl. change (2 ^ 8) with 256.
    rewrite (u32_id (q * 256)) by (unfold T32; lia). rewrite u32_id by (unfold T32; lia). rewrite <- Q2. reflexivity.
Qed.
Lemma byte_of low k : low < T32 -> k = 0 \/ k = 8 \/ k = 16 \/ k = 24 ->
  u8 (N.shiftr (N.land low (N.shiftl 255 k)) k) = low / 2 ^ k mod 256.
Proof.
  intros L K. assert (E : N.shiftr (N.land low (N.shiftl 255 k)) k = low / 2 ^ k mod 256).
  { rewrite N.shiftr_land, N.shiftr_shiftl_l, N.sub_diag, N.shiftl_0_r by lia. rewrite <- shr. change 255 with (N.ones 8). rewrite N.land_ones. reflexivity. }
  rewrite E. apply u8_id. apply N.mod_lt. discriminate.
Qed.
(** One digit of the schoolbook division: [m] is the part of the dividend consumed so far. *)
Lemma school d m b q r : 0 < d -> m = q * d + r -> r < d -> m * 256 + b = (q * 256 + (r * 256 + b) / d) * d + (r * 256 + b) mod d /\ (r * 256 + b) mod d < d.
Proof. intros D0 E R. pose proof (dm (r * 256 + b) d ltac:(lia)) as (A & B). split; auto. subst m. rewrite N.mul_add_distr_r in *. lia. Qed.
Theorem divmod32_ok a d : 0 < d -> d < T32 -> a < T64 -> RedUint64DivMod32 a d = Some (a / d, a mod d).
Proof.
  intros D0 D1 A0. unfold RedUint64DivMod32. destruct (N.eqb_spec d 0) as [->|_]; [lia|].
  destruct (N.leb_spec a UINT32_MAX) as [L|L].
  - rewrite u32_id by (unfold T32, UINT32_MAX in *; lia). reflexivity.
  - cbv zeta. rewrite shr. change (2 ^ 32) with T32. change (u32 a) with (a mod T32).
    pose proof (dm a T32 ltac:(discriminate)) as (DA & DB). set (hi := a / T32) in *. set (low := a mod T32) in *.
    assert (HI : hi < T32). { apply N.div_lt_upper_bound; [discriminate|]. exact A0. }
    rewrite (u32_id hi) by auto. pose proof (dm hi d ltac:(lia)) as (DH & DR).
    unfold div_low. cbv zeta.
    change 4278190080 with (N.shiftl 255 24). change 16711680 with (N.shiftl 255 16). change 65280 with (N.shiftl 255 8). change (N.land low 255) with (N.land low (N.shiftl 255 0)).
    rewrite !byte_of by (auto; lia). change (2 ^ 24) with 16777216. change (2 ^ 16) with 65536. change (2 ^ 8) with 256. change (2 ^ 0) with 1. rewrite N.div_1_r.
    set (b3 := low / 16777216 mod 256). set (b2 := low / 65536 mod 256). set (b1 := low / 256 mod 256). set (b0 := low mod 256).
    assert (BL : b3 < 256 /\ b2 < 256 /\ b1 < 256 /\ b0 < 256) by (repeat split; apply N.mod_lt; discriminate). destruct BL as (B3 & B2 & B1 & B0).
    assert (LE : low = ((b3 * 256 + b2) * 256 + b1) * 256 + b0).
    { unfold b3, b2, b1, b0. change 16777216 with (256 * 256 * 256). change 65536 with (256 * 256). rewrite <- !N.div_div by discriminate.
      pose proof (dm low 256 ltac:(discriminate)) as (X1 & _). pose proof (dm (low / 256) 256 ltac:(discriminate)) as (X2 & _). pose proof (dm (low / 256 / 256) 256 ltac:(discriminate)) as (X3 & _).
      assert (Z : low / 256 / 256 / 256 < 256). { repeat (apply N.div_lt_upper_bound; [discriminate|]). exact DB. }
      rewrite (N.mod_small (low / 256 / 256 / 256)) by auto. rewrite <- X3, <- X2, <- X1. reflexivity. }
    clearbody b3 b2 b1 b0. clear L.
    assert (HD : hi / d < T32). { apply N.div_lt_upper_bound; [lia|]. clear - HI D0. nia. }
    set (qh := hi / d) in *. set (rh := hi mod d) in *. clearbody qh rh low. clearbody hi.
    destruct (div_byte_ok d b3 0 rh) as (R3 & Q3); auto; try lia. rewrite R3.
    destruct (school d hi b3 qh rh D0 DH DR) as (E3 & M3).
    set (c3 := (rh * 256 + b3) / d) in *. set (r3 := (rh * 256 + b3) mod d) in *. clearbody c3 r3.
    destruct (div_byte_ok d b2 (0 * 256 + c3) r3) as (R2 & Q2); auto; try lia. rewrite R2.
    destruct (school d _ b2 _ _ D0 E3 M3) as (E2 & M2).
    set (c2 := (r3 * 256 + b2) / d) in *. set (r2 := (r3 * 256 + b2) mod d) in *. clearbody c2 r2.
    destruct (div_byte_ok d b1 ((0 * 256 + c3) * 256 + c2) r2) as (R1 & Q1); auto; try lia. rewrite R1.
    destruct (school d _ b1 _ _ D0 E2 M2) as (E1 & M1).
    set (c1 := (r2 * 256 + b1) / d) in *. set (r1 := (r2 * 256 + b1) mod d) in *. clearbody c1 r1.
    destruct (div_byte_ok d b0 (((0 * 256 + c3) * 256 + c2) * 256 + c1) r1) as (R0 & Q0); auto; try lia. rewrite R0.
    destruct (school d _ b0 _ _ D0 E1 M1) as (E0 & M0).
    set (c0 := (r1 * 256 + b0) / d) in *. set (r0 := (r1 * 256 + b0) mod d) in *. clearbody c0 r0.
    rewrite shl. change (2 ^ 32) with T32. set (q := qh * T32 + ((((0 * 256 + c3) * 256 + c2) * 256 + c1) * 256 + c0)).
    assert (AQ : a = q * d + r0). { rewrite DA, LE. unfold q, T32. clear - E0. rewrite N.mul_0_l, N.add_0_l in *. nia. }
    assert (QL : q < T64). { unfold q, T32, T64 in *. lia. }
    rewrite (u64_id q) by auto. destruct (div_unique' a d q r0 M0 AQ) as (X1 & X2). rewrite X1, X2.
    rewrite (u64_id (q * d)) by lia. rewrite sub64 by lia. rewrite (u32_id (a - q * d)) by lia. f_equal. f_equal. lia.
Qed.

(** ** 64 by 64 bits *)
Definition nlz_step (c k : N) (s : N * N) : N * N := let '(n, x) := s in if x <=? c then (n + k, u64 (N.shiftl x k)) else (n, x).
Lemma nlz_step_ok x c k pre post n y : pre * 2 ^ k = post -> post * 2 ^ k = T64 -> c + 1 = post -> y = x * 2 ^ n -> pre <= y -> y < T64 ->
  let s := nlz_step c k (n, y) in snd s = x * 2 ^ fst s /\ post <= snd s /\ snd s < T64 /\ fst s <= n + k.
Proof.
  intros E1 E2 E3 EY LY HY. cbv zeta. unfold nlz_step. destruct (N.leb_spec y c) as [C|C]; cbn [fst snd].
  - rewrite shl. assert (Q1 : post <= y * 2 ^ k) by (rewrite <- E1; apply N.mul_le_mono_r; auto).
    assert (Q2 : y * 2 ^ k < T64). { rewrite <- E2. apply N.mul_lt_mono_pos_r; [|lia]. apply N.neq_0_lt_0, N.pow_nonzero; discriminate. }
    rewrite u64_id by auto. split; [rewrite EY, N.pow_add_r; lia|]. split; [auto|]. split; [auto|]. lia.
  - split; auto. split; [lia|]. split; [auto|]. lia.
Qed.
Lemma nlz64_steps x : x <> 0 -> nlz64 x = fst (nlz_step 9223372036854775807 1 (nlz_step 4611686018427387903 2 (nlz_step 1152921504606846975 4 (nlz_step 72057594037927935 8
   (nlz_step 281474976710655 16 (nlz_step 4294967295 32 (0, x))))))).
Proof.
  intros H. unfold nlz64. destruct (N.eqb_spec x 0) as [E|_]; [contradiction|]. cbv zeta.
  change ((let '(n, x0) := nlz_step 4611686018427387903 2 (nlz_step 1152921504606846975 4 (nlz_step 72057594037927935 8
   (nlz_step 281474976710655 16 (nlz_step 4294967295 32 (0, x))))) in if x0 <=? 9223372036854775807 then n + 1 else n) =
   fst (nlz_step 9223372036854775807 1 (nlz_step 4611686018427387903 2 (nlz_step 1152921504606846975 4 (nlz_step 72057594037927935 8
   (nlz_step 281474976710655 16 (nlz_step 4294967295 32 (0, x)))))))).
  generalize (nlz_step 4611686018427387903 2 (nlz_step 1152921504606846975 4 (nlz_step 72057594037927935 8 (nlz_step 281474976710655 16 (nlz_step 4294967295 32 (0, x)))))).
  intros [n y]. unfold nlz_step. now destruct (y <=? _).
Qed.
Lemma nlz64_ok x : 4294967296 <= x -> x < T64 -> nlz64 x <= 31 /\ 9223372036854775808 <= x * 2 ^ nlz64 x /\ x * 2 ^ nlz64 x < T64.
Proof.
  intros L H. rewrite nlz64_steps by lia.
  assert (S0 : nlz_step 4294967295 32 (0, x) = (0, x)). { unfold nlz_step. destruct (N.leb_spec x 4294967295); [lia|reflexivity]. }
  rewrite S0.
  destruct (nlz_step_ok x 281474976710655 16 4294967296 281474976710656 0 x) as (A1 & A2 & A3 & A4); auto; try (unfold T64; lia).
  destruct (nlz_step 281474976710655 16 (0, x)) as [n1 y1]. cbn [fst snd] in *.
  destruct (nlz_step_ok x 72057594037927935 8 281474976710656 72057594037927936 n1 y1) as (B1 & B2 & B3 & B4); auto.
  destruct (nlz_step 72057594037927935 8 (n1, y1)) as [n2 y2]. cbn [fst snd] in *.
  destruct (nlz_step_ok x 1152921504606846975 4 72057594037927936 1152921504606846976 n2 y2) as (C1 & C2 & C3 & C4); auto.
  destruct (nlz_step 1152921504606846975 4 (n2, y2)) as [n3 y3]. cbn [fst snd] in *.
  destruct (nlz_step_ok x 4611686018427387903 2 1152921504606846976 4611686018427387904 n3 y3) as (D1 & D2 & D3 & D4); auto.
  destruct (nlz_step 4611686018427387903 2 (n3, y3)) as [n4 y4]. cbn [fst snd] in *.
  destruct (nlz_step_ok x 9223372036854775807 1 4611686018427387904 9223372036854775808 n4 y4) as (E1 & E2 & E3 & E4); auto.
  destruct (nlz_step 9223372036854775807 1 (n4, y4)) as [n5 y5]. cbn [fst snd] in *. rewrite <- E1. split; [lia|auto].
Qed.
(** The estimate of the quotient is exact or too large by one. *)
Lemma estimate a v n : 4294967296 <= v -> v < T64 -> a < T64 -> n <= 31 -> 9223372036854775808 <= v * 2 ^ n -> v * 2 ^ n < T64 ->
  a / 2 / (v * 2 ^ n / T32) * 2 ^ n / 2147483648 = a / (v / 2 ^ (32 - n) * 2 ^ (32 - n)) /\ 2147483648 <= v / 2 ^ (32 - n) /\ v / 2 ^ (32 - n) < T32 /\ v * 2 ^ n / T32 = v / 2 ^ (32 - n).
Proof.
  intros L HV HA NL L1 L2. set (m := 32 - n). assert (E : T32 = 2 ^ n * 2 ^ m). { rewrite <- N.pow_add_r. unfold m. replace (n + (32 - n)) with 32 by lia. reflexivity. }
  pose proof (N.pow_nonzero 2 n ltac:(discriminate)) as P1. pose proof (N.pow_nonzero 2 m ltac:(discriminate)) as P2.
  assert (V1 : v * 2 ^ n / T32 = v / 2 ^ m). { rewrite E. rewrite <- N.div_div by auto. rewrite N.div_mul by auto. reflexivity. }
  rewrite V1. assert (A1 : 2147483648 <= v / 2 ^ m). { rewrite <- V1. apply N.div_le_lower_bound; [discriminate|]. exact L1. }
  assert (A2 : v / 2 ^ m < T32). { rewrite <- V1. apply N.div_lt_upper_bound; [discriminate|]. exact L2. }
  split; [|auto].
  assert (E31 : 2147483648 = 2 ^ (31 - n) * 2 ^ n). { rewrite <- N.pow_add_r. replace (31 - n + n) with 31 by lia. reflexivity. }
  assert (E2 : 2 ^ m = 2 * 2 ^ (31 - n)). { unfold m. replace (32 - n) with (N.succ (31 - n)) by lia. apply N.pow_succ_r'. }
  pose proof (N.pow_nonzero 2 (31 - n) ltac:(discriminate)) as P3. set (w := v / 2 ^ m) in *.
  rewrite E31, N.div_mul_cancel_r by auto.
  assert (W0 : w <> 0) by (clear - A1; lia). assert (WP : w * 2 ^ (31 - n) <> 0) by (clear - W0 P3; nia).
  rewrite (N.div_div (a / 2) w) by auto. rewrite (N.div_div a 2) by (auto; discriminate).
  f_equal. rewrite E2. lia.
Qed.
Lemma estimate_near a v m : 1 <= m -> a < T64 -> 2147483648 <= v / 2 ^ m -> a / v <= a / (v / 2 ^ m * 2 ^ m) /\ a / (v / 2 ^ m * 2 ^ m) <= a / v + 1.
Proof.
  intros M1 HA HW. pose proof (N.pow_nonzero 2 m ltac:(discriminate)) as P2. pose proof (dm v (2 ^ m) P2) as (D1 & D2).
  set (w := v / 2 ^ m) in *. set (b := v mod 2 ^ m) in *. set (p := 2 ^ m) in *.
  assert (V0 : v <> 0) by nia. assert (W0 : w * p <> 0) by nia.
  pose proof (dm a v V0) as (Q1 & Q2). set (q := a / v) in *. set (r := a mod v) in *.
  split; [apply N.div_le_compat_l; nia|].
  assert (a < (w * p) * (q + 2)); [|pose proof (N.div_lt_upper_bound a (w * p) (q + 2) W0 H); lia].
  assert (K : b * (q + 1) <= w * p); [|nia].
  destruct (N.le_gt_cases (b * (q + 1)) (w * p)) as [K|K]; auto. exfalso.
  assert (P4 : p = 2 \/ 4 <= p).
  { destruct (N.eq_dec m 1) as [->|M2]; [left; reflexivity|right]. change 4 with (2 ^ 2). apply N.pow_le_mono_r; [discriminate|lia]. }
  clearbody w b p q r. clear M1. subst v. assert (B1 : b <= p - 1) by lia. assert (QW : w <= q) by nia.
  assert (AQ : q * (w * p + b) < T64) by lia. unfold T64 in *. destruct P4 as [->|P4].
  - assert (b <= 1) by lia. assert (2 * w <= q) by nia. assert (2 * w * (2 * w) + b * q <= q * (w * 2 + b)) by nia. nia.
  - assert (w * w * 4 <= q * (w * p + b)) by nia. nia.
Qed.
Lemma shr0 n k : N.shiftr n k = 0 <-> n < 2 ^ k.
Proof. rewrite shr. pose proof (N.pow_nonzero 2 k ltac:(discriminate)). split; intros E; [apply N.div_small_iff; auto|apply N.div_small; auto]. Qed.
Theorem divmod64_ok a d : 0 < d -> d < T64 -> a < T64 -> RedUint64DivMod64 a d = Some (a / d, a mod d).
Proof.
  intros D0 D1 A0. pose proof (dm a d ltac:(lia)) as (DA & DB).
  assert (RM : forall q, q = a / d -> Some (q, u64 (a + 18446744073709551616 - u64 (q * d))) = Some (a / d, a mod d)).
  { intros q ->. rewrite (u64_id (a / d * d)) by lia. rewrite sub64 by lia. f_equal. f_equal. lia. }
  unfold RedUint64DivMod64. destruct (N.eqb_spec (N.shiftr d 32) 0) as [S|S].
  - apply shr0 in S. change (2 ^ 32) with T32 in S. rewrite (u32_id d) by auto.
    rewrite shr. change (2 ^ 32) with T32. destruct (N.ltb_spec (a / T32) d) as [L|L].
    + rewrite divmod32_ok by auto. cbn [option_map fst]. apply RM. reflexivity.
    + pose proof (dm a T32 ltac:(discriminate)) as (DA2 & DB2).
      assert (HI : a / T32 < T32) by (apply N.div_lt_upper_bound; [discriminate|exact A0]).
      rewrite divmod32_ok by (auto; unfold T32, T64 in *; lia).
      pose proof (dm (a / T32) d ltac:(lia)) as (DH & DR).
      change 4294967295 with (N.ones 32). rewrite N.land_ones. change (2 ^ 32) with T32. rewrite !shl. change (2 ^ 32) with T32.
      set (low := a mod T32) in *. set (k := a / T32 mod d) in *. set (q1 := a / T32 / d) in *. set (hi := a / T32) in *.
      clearbody low k q1 hi.
      assert (K1 : k * T32 + low < T64) by (unfold T32, T64 in *; nia).
      rewrite (u64_id (k * T32)) by (unfold T32, T64 in *; lia). rewrite (u64_id (k * T32 + low)) by auto.
      rewrite divmod32_ok by auto. pose proof (dm (k * T32 + low) d ltac:(lia)) as (DQ & DQ2).
      set (q0 := (k * T32 + low) / d) in *. set (r0 := (k * T32 + low) mod d) in *. clearbody q0 r0.
      assert (EQ : a = (q1 * T32 + q0) * d + r0). { rewrite DA2, DH. rewrite N.mul_add_distr_r. lia. }
      destruct (div_unique' a d (q1 * T32 + q0) r0 DQ2 EQ) as (X1 & X2).
      assert (QB : q1 * T32 + q0 < T64). { clear - EQ A0 D0. nia. }
      rewrite (u64_id (q1 * T32)) by lia. rewrite u64_id by auto. apply RM. auto.
  - assert (DL : 4294967296 <= d). { destruct (N.le_gt_cases 4294967296 d) as [|C]; auto. exfalso. apply S. apply shr0. exact C. }
    cbv zeta. destruct (nlz64_ok d DL D1) as (N1 & N2 & N3). set (n := nlz64 d) in *. clearbody n.
    rewrite !shr, !shl. rewrite (u64_id (d * 2 ^ n)) by auto. change (2 ^ 32) with T32. change (2 ^ 1) with 2. change (2 ^ 31) with 2147483648.
    destruct (estimate a d n DL D1 A0 N1 N2 N3) as (E & W1 & W2 & W3).
    set (v1 := d * 2 ^ n / T32) in *.
    assert (V2 : 2147483648 <= v1 /\ v1 < T32) by (rewrite W3; auto). rewrite (u32_id v1) by apply V2.
    assert (A2 : a / 2 < 9223372036854775808) by (apply N.div_lt_upper_bound; [discriminate|exact A0]).
    rewrite divmod32_ok by (try apply V2; unfold T64 in *; lia).
    assert (Q1 : a / 2 / v1 < T32). { apply N.div_lt_upper_bound; [lia|]. unfold T32 in *. lia. }
    assert (Q2 : a / 2 / v1 * 2 ^ n < T64).
    { assert (2 ^ n <= 2 ^ 31) by (apply N.pow_le_mono_r; [discriminate|auto]). change (2 ^ 31) with 2147483648 in *. unfold T32, T64 in *. clear - H Q1. nia. }
    rewrite shr, shl. change (2 ^ 31) with 2147483648. rewrite (u64_id (a / 2 / v1 * 2 ^ n)) by auto. rewrite E.
    destruct (estimate_near a d (32 - n) ltac:(lia) A0 W1) as (F1 & F2).
    set (q0 := a / (d / 2 ^ (32 - n) * 2 ^ (32 - n))) in *. clearbody q0.
    set (q := a / d) in *. set (r := a mod d) in *. clear - D0 DL A0 DA DB F1 F2 RM. clearbody q r.
    destruct (N.eqb_spec q0 0) as [Z|NZ]; cbn [negb].
    + subst q0. assert (q = 0) by lia. subst q. rewrite N.mul_0_l. change (u64 0) with 0. rewrite sub64 by lia. rewrite N.sub_0_r.
      destruct (N.leb_spec d a); [lia|]. apply RM. reflexivity.
    + assert (CQ : q0 - 1 = q \/ q0 - 1 + 1 = q) by lia. set (x := q0 - 1) in *. clearbody x.
      assert (XL : x * d <= a) by (destruct CQ; subst; nia).
      rewrite (u64_id (x * d)) by lia. rewrite sub64 by auto.
      destruct (N.leb_spec d (a - x * d)) as [C|C]; (apply RM).
      * destruct CQ as [->|E]; [lia|]. rewrite u64_id; [exact E|]. unfold T64 in *. rewrite E. nia.
      * destruct CQ as [E|E]; [exact E|]. exfalso. subst q. rewrite N.mul_add_distr_r in DA. lia.
Qed.

(** ** Scaling *)
(** The result r for the exact value e: exact, or too small by less than m, or UINT64_MAX where e is larger than
    UINT64_MAX - m. *)
Definition near (m e r : N) : Prop :=
  r <= UINT64_MAX /\ (r = e \/ r < e /\ e < r + m \/ r = UINT64_MAX /\ UINT64_MAX < e + m).
Lemma near_mono m m' e r : m <= m' -> near m e r -> near m' e r.
Proof. unfold near. lia. Qed.
Lemma land1 x : (N.land x 1 =? 0) = true -> x = 2 * (x / 2).
Proof. intros H. apply N.eqb_eq in H. change 1 with (N.ones 1) in H. rewrite N.land_ones in H. change (2 ^ 1) with 2 in H. pose proof (dm x 2 ltac:(discriminate)). lia. Qed.
Lemma bit63 x : x < T64 -> (N.land x 9223372036854775808 =? 0) = true -> x < 9223372036854775808.
Proof.
  intros L H. apply N.eqb_eq in H. destruct (N.lt_ge_cases x 9223372036854775808) as [|G]; auto. exfalso.
  assert (B : N.testbit (N.land x 9223372036854775808) 63 = true).
  { rewrite N.land_spec. change (N.testbit 9223372036854775808 63) with true. rewrite andb_true_r. rewrite N.testbit_eqb. apply N.eqb_eq. change (2 ^ 63) with 9223372036854775808.
    assert (E : x / 9223372036854775808 = 1). { symmetry. apply (N.div_unique x 9223372036854775808 1 (x - 9223372036854775808)); unfold T64 in *; lia. }
    rewrite E. reflexivity. }
  rewrite H in B. discriminate B.
Qed.
Lemma max_lt : UINT64_MAX < T64. Proof. reflexivity. Qed.
Lemma div_upper a d : 0 < d -> a < (a / d + 1) * d. Proof. intros H. pose proof (dm a d ltac:(lia)). lia. Qed.
Lemma rest_ok m0 base mult dv temp : 0 < base -> base < T64 -> 0 < mult -> mult <= m0 -> m0 < T32 -> 0 < dv -> dv < T64 ->
  temp * mult <= UINT64_MAX -> UINT64_MAX < temp * mult + m0 -> temp < base ->
  exists r, muldiv_rest base mult dv temp = Some r /\ near m0 (base * mult / dv) r.
Proof.
  intros B0 B1 M0 M1 M2 V0 V1 T0 T1 T2. unfold muldiv_rest.
  assert (MT : mult < T64) by (unfold T32, T64 in *; lia).
  rewrite divmod64_ok by auto. pose proof (dm base dv ltac:(lia)) as (DB & _).
  destruct (N.eqb_spec (base mod dv) 0) as [Z|NZ].
  - assert (E : base * mult / dv = base / dv * mult). { rewrite DB, Z, N.add_0_r at 1. rewrite (N.mul_comm (base / dv)), <- N.mul_assoc, N.mul_comm. apply N.div_mul. lia. }
    rewrite E. set (bt := base / dv) in *. clearbody bt. eexists. split; [reflexivity|]. destruct (N.ltb_spec temp bt) as [L|L].
    + split; [lia|]. right. right. split; auto. assert (temp * mult <= bt * mult) by (apply N.mul_le_mono_r; lia). lia.
    + assert (bt * mult <= temp * mult) by (apply N.mul_le_mono_r; lia). pose proof max_lt. rewrite u64_id by lia. split; [lia|auto].
  - rewrite divmod64_ok by auto. pose proof (dm mult dv ltac:(lia)) as (DM & _). destruct (N.eqb_spec (mult mod dv) 0) as [Z|NZ2].
    + rewrite divmod64_ok by (auto; apply max_lt).
      assert (E : base * mult / dv = base * (mult / dv)). { rewrite DM, Z, N.add_0_r at 1. rewrite N.mul_assoc. apply N.div_mul. lia. }
      assert (WL : mult / dv <= mult). { rewrite DM at 2. clear - V0. set (y := mult / dv). clearbody y. nia. }
      rewrite E. set (wm := mult / dv) in *. clearbody wm. pose proof (dm UINT64_MAX base ltac:(lia)) as (DT & DT2). pose proof (div_upper UINT64_MAX base B0) as DU.
      set (t := UINT64_MAX / base) in *. clearbody t. eexists. split; [reflexivity|]. destruct (N.ltb_spec t wm) as [L|L].
      * split; [lia|]. right. right. split; auto. assert ((t + 1) * base <= wm * base) by (apply N.mul_le_mono_r; lia). lia.
      * assert (base * wm <= UINT64_MAX). { assert (wm * base <= t * base) by (apply N.mul_le_mono_r; auto). lia. }
        rewrite (u32_id wm) by lia. pose proof max_lt. rewrite u64_id by lia. split; [lia|auto].
    + set (P := fun b m => forall A, A = (match RedUint64DivMod64 b dv with None => None | Some (base, _) =>
          match RedUint64DivMod32 UINT64_MAX m with None => None | Some (temp, _) => Some (if temp <? base then UINT64_MAX else u64 (base * m)) end end) ->
          exists r, A = Some r /\ near m0 (b * m / dv) r).
      assert (K : forall b m, 0 < m -> m <= m0 -> b < T64 -> P b m).
      { intros b m G0 G1 G2 A ->. rewrite divmod64_ok by auto. rewrite divmod32_ok by (auto; try apply max_lt; lia). eexists. split; [reflexivity|].
        pose proof (dm b dv ltac:(lia)) as (D1 & D2). pose proof (div_upper UINT64_MAX m G0) as DU. pose proof (dm UINT64_MAX m ltac:(lia)) as (DT & _).
        assert (E1 : b / dv * m <= b * m / dv). { apply N.div_le_lower_bound; [lia|]. rewrite D1 at 2. clear. set (y := b / dv). clearbody y. nia. }
        assert (E2 : b * m / dv < b / dv * m + m).
        { apply N.div_lt_upper_bound; [lia|]. rewrite D1 at 1. set (y := b / dv) in *. set (z := b mod dv) in *. clearbody y z. clear - D2 G0. nia. }
        set (bq := b / dv) in *. set (t := UINT64_MAX / m) in *. set (e := b * m / dv) in *. clearbody bq t e. destruct (N.ltb_spec t bq) as [L|L].
        - split; [lia|]. right. right. split; auto. assert ((t + 1) * m <= bq * m) by (apply N.mul_le_mono_r; lia). lia.
        - assert (bq * m <= t * m) by (apply N.mul_le_mono_r; auto). pose proof max_lt. rewrite u64_id by lia. split; [lia|]. lia. }
      destruct (N.ltb_spec base mult) as [L|L].
      * rewrite (u32_id base) by lia. rewrite (N.mul_comm base mult). apply (K mult base); auto. lia.
      * apply (K base mult); auto.
Qed.
Lemma loop_ok m0 : m0 < T32 -> forall fuel base mult dv temp, 0 < base -> base < T64 -> 0 < mult -> mult <= m0 -> 0 < dv -> dv < 2 ^ N.of_nat fuel -> dv < T64 ->
  temp < T64 -> temp * mult <= UINT64_MAX -> UINT64_MAX < temp * mult + m0 ->
  exists r, muldiv_loop fuel base mult dv temp = Some r /\ near m0 (base * mult / dv) r.
Proof.
  intros M2. induction fuel as [|n IH]; intros base mult dv temp B0 B1 M0 M1 V0 V1 V2 T0 T1 T2; cbn [muldiv_loop]; (destruct (N.ltb_spec temp base) as [L|L]; [|
    assert (base * mult <= temp * mult) by (apply N.mul_le_mono_r; auto); pose proof max_lt;
    rewrite (u64_id (base * mult)) by lia; rewrite divmod64_ok by (auto; lia); cbn [option_map fst]; eexists; split; [reflexivity|];
    split; [|auto]; transitivity (base * mult); [apply N.div_le_upper_bound; [lia|]; clear - V0; nia|lia]]).
  - change (2 ^ N.of_nat 0) with 1 in V1. lia.
  - pose proof (rest_ok m0 base mult dv temp B0 B1 M0 M1 M2 V0 V2 T1 T2 L) as R.
    rewrite Nat2N.inj_succ, N.pow_succ_r' in V1.
    destruct (N.land dv 1 =? 0) eqn:E1; auto. apply land1 in E1.
    destruct (N.land base 1 =? 0) eqn:E2.
    + apply land1 in E2. rewrite !shr. change (2 ^ 1) with 2.
      set (b := base / 2) in *. set (d := dv / 2) in *. clearbody b d. subst base dv.
      set (w := 2 ^ N.of_nat n) in *. clearbody w.
      destruct (IH b mult d temp ltac:(lia) ltac:(lia) M0 M1 ltac:(lia) ltac:(lia) ltac:(lia) T0 T1 T2) as (r & R1 & R2).
      exists r. split; auto. rewrite <- N.mul_assoc. rewrite N.div_mul_cancel_l by lia. exact R2.
    + destruct (N.land mult 1 =? 0) eqn:E3; [|exact R]. destruct (N.land temp 9223372036854775808 =? 0) eqn:E4; [|exact R]. cbn [andb].
      apply land1 in E3. apply bit63 in E4; auto. rewrite !shr, shl. change (2 ^ 1) with 2.
      set (m := mult / 2) in *. set (d := dv / 2) in *. clearbody m d. subst mult dv.
      rewrite (u64_id (temp * 2)) by (unfold T64; lia).
      assert (EQ : temp * 2 * m = temp * (2 * m)) by lia.
      set (w := 2 ^ N.of_nat n) in *. clearbody w. rewrite <- EQ in T1, T2.
      assert (T3 : UINT64_MAX < temp * 2 * m + m0) by exact T2.
      assert (T4 : temp * 2 < T64) by (unfold T64; lia).
      destruct (IH base m d (temp * 2) B0 B1 ltac:(lia) ltac:(lia) ltac:(lia) ltac:(lia) ltac:(lia) T4 T1 T3) as (r & R1 & R2).
      exists r. split; auto. replace (base * (2 * m)) with (2 * (base * m)) by lia. rewrite N.div_mul_cancel_l by lia. exact R2.
Qed.
Lemma loop_out fuel base mult dv temp : base <= temp -> muldiv_loop fuel base mult dv temp = option_map fst (RedUint64DivMod64 (u64 (base * mult)) dv).
Proof. intros H. destruct fuel; cbn [muldiv_loop]; (destruct (N.ltb_spec temp base); [lia|]); reflexivity. Qed.
Theorem muldiv_ok base mult dv : base < T64 -> 0 < mult -> mult < T32 -> 0 < dv -> dv < T64 ->
  exists r, RedMulDiv64 base mult dv = Some r /\ near mult (base * mult / dv) r /\ (base * mult <= UINT64_MAX -> r = base * mult / dv).
Proof.
  intros B1 M0 M1 V0 V1. unfold RedMulDiv64. destruct (N.eqb_spec base 0) as [->|NB].
  { exists 0. cbn [orb]. rewrite N.mul_0_l, N.div_0_l by lia. split; auto. split; auto. split; [discriminate|auto]. }
  destruct (N.eqb_spec mult 0); [lia|]. destruct (N.eqb_spec dv 0); [lia|]. cbn [orb].
  rewrite divmod32_ok by (auto; apply max_lt). pose proof (dm UINT64_MAX mult ltac:(lia)) as (D1 & D2).
  set (t := UINT64_MAX / mult) in *. pose proof max_lt.
  assert (TL : t < T64). { apply N.div_lt_upper_bound; [lia|]. clear - M0. unfold UINT64_MAX, T64. nia. }
  destruct (loop_ok mult M1 64 base mult dv t) as (r & R & NR); auto; try lia.
  exists r. split; auto. split; auto. intros LE.
  assert (TB : base <= t) by (apply N.div_le_lower_bound; lia).
  assert (E : muldiv_loop 64 base mult dv t = Some (base * mult / dv)).
  { rewrite loop_out by auto. rewrite u64_id by lia. rewrite divmod64_ok by (auto; lia). reflexivity. }
  congruence.
Qed.
