(** C48: the division, scaling and ratio routines of tests/util/math.c, for all operands. *)
From Verif Require Import Base Math MathP.
Ltac Zify.zify_post_hook ::= idtac.

(** Dividing a 64-bit number by a non-zero 32-bit number gives exactly the quotient and the remainder. *)
Theorem C48_divmod32 : forall a d, a < 2 ^ 64 -> 0 < d -> d < 2 ^ 32 ->
  exists q r, RedUint64DivMod32 a d = Some (q, r) /\ a = q * d + r /\ r < d.
Proof.
  intros a d A D0 D1. exists (a / d), (a mod d). split; [apply divmod32_ok; auto|].
  pose proof (dm a d ltac:(lia)) as (X & Y). split; auto.
Qed.
(** The same for a 64-bit divisor. *)
Theorem C48_divmod64 : forall a d, a < 2 ^ 64 -> 0 < d -> d < 2 ^ 64 ->
  exists q r, RedUint64DivMod64 a d = Some (q, r) /\ a = q * d + r /\ r < d.
Proof.
  intros a d A D0 D1. exists (a / d), (a mod d). split; [apply divmod64_ok; auto|].
  pose proof (dm a d ltac:(lia)) as (X & Y). split; auto.
Qed.
(** Scaling: RedMulDiv64(base, mult, dv) always ends.  It is 0 if base or mult is 0, UINT64_MAX if only dv is 0, and otherwise
    floor(base * mult / dv) whenever the product fits in 64 bits; when it does not fit, the result is the exact value, or is too
    small by less than [mult], or is UINT64_MAX where the exact value is within [mult] of UINT64_MAX or above it. *)
Theorem C48_muldiv : forall base mult dv, base < 2 ^ 64 -> mult < 2 ^ 32 -> dv < 2 ^ 64 ->
  exists r, RedMulDiv64 base mult dv = Some r /\
    (base = 0 \/ mult = 0 -> r = 0) /\
    (0 < base -> 0 < mult -> dv = 0 -> r = 2 ^ 64 - 1) /\
    (0 < base -> 0 < mult -> 0 < dv ->
       (base * mult < 2 ^ 64 -> r = base * mult / dv) /\
       (r = base * mult / dv \/
        (r < base * mult / dv /\ base * mult / dv < r + mult) \/
        (r = 2 ^ 64 - 1 /\ 2 ^ 64 - 1 < base * mult / dv + mult))).
Proof.
  intros base mult dv B M D. destruct (N.eq_dec base 0) as [ZB|NB].
  { exists 0. split; [subst; reflexivity|]. repeat split; intros; lia. }
  destruct (N.eq_dec mult 0) as [ZM|NM].
  { exists 0. split; [subst; unfold RedMulDiv64; rewrite orb_true_r; reflexivity|]. repeat split; intros; lia. }
  destruct (N.eq_dec dv 0) as [ZD|ND].
  { exists UINT64_MAX. split.
    { unfold RedMulDiv64. destruct (N.eqb_spec base 0); [lia|]. destruct (N.eqb_spec mult 0); [lia|]. subst dv. reflexivity. }
    split; [intros [?|?]; lia|]. split; [reflexivity|]. intros; lia. }
  destruct (muldiv_ok base mult dv) as (r & R & (N1 & N2) & X); auto; try lia.
  exists r. split; auto. split; [intros [?|?]; lia|]. split; [intros; lia|]. intros _ _ _. split.
  - intros L. apply X. change (2 ^ 64) with 18446744073709551616 in L. change UINT64_MAX with 18446744073709551615. clear - L. set (p := base * mult) in *. clearbody p. lia.
  - exact N2.
Qed.
(** The two numbers RedRatio prints: the integral part and the requested decimal digits (truncated, not rounded). *)
Theorem C48_ratio : forall dividend divisor places, 0 < dividend -> 0 < divisor -> divisor < 2 ^ 64 -> places <= 9 ->
  dividend * 10 ^ places < 2 ^ 64 ->
  RedRatio dividend divisor places = Some (Some (dividend / divisor, dividend * 10 ^ places / divisor mod 10 ^ places)).
Proof.
  intros a d k A0 D0 D1 K F. unfold RedRatio. destruct (N.ltb_spec 0 d); [|lia]. destruct (N.ltb_spec 0 a); [|lia]. cbn [andb].
  assert (P : 10 ^ k <= 1000000000). { change 1000000000 with (10 ^ 9). apply N.pow_le_mono_r; [discriminate|auto]. }
  assert (P0 : 0 < 10 ^ k) by (apply N.neq_0_lt_0, N.pow_nonzero; discriminate).
  set (f := 10 ^ k) in *. clearbody f. change (2 ^ 64) with T64 in *.
  assert (U : u32 f = f) by (apply u32_id; unfold T32; lia). rewrite U.
  assert (AL : a < T64) by (clear - F P0; nia).
  destruct (muldiv_ok a f d) as (r & R & (N1 & _) & X); auto; try (unfold T32; lia).
  assert (L : a * f <= UINT64_MAX). { change UINT64_MAX with 18446744073709551615. unfold T64 in F. clear - F. set (p := a * f) in *. clearbody p. lia. }
  rewrite R. specialize (X L). destruct (N.leb_spec d a) as [C|C].
  - rewrite divmod32_ok by (auto; try (unfold T32; lia); change UINT64_MAX with 18446744073709551615 in N1; unfold T64; lia).
    cbn [option_map snd]. rewrite divmod64_ok by auto. rewrite X. reflexivity.
  - rewrite divmod64_ok by auto. rewrite X. rewrite N.mod_small; [reflexivity|].
    apply N.div_lt_upper_bound; [lia|]. clear - C P0. nia.
Qed.
(** "Returns UINT64_MAX if an overflow condition occurred" is not exact: with base = 2 * floor((2^64-1)/18) + 1, mult = 18 and
    dv = 2 the result 9 * base fits in 64 bits, but the routine answers UINT64_MAX: code path 1b halves the multiplier and doubles
    the limit floor((2^64-1)/18) instead of recomputing it. *)
Theorem C48_no_spurious_overflow_refuted :
  exists base mult dv, base < 2 ^ 64 /\ mult < 2 ^ 32 /\ 0 < dv /\ dv < 2 ^ 64 /\
    RedMulDiv64 base mult dv = Some (2 ^ 64 - 1) /\ base * mult / dv < 2 ^ 64 - 1.
Proof. exists 2049638230412172401, 18, 2. vm_compute. repeat split. Qed.

(** ** The hypotheses are met *)
Example div32_wide : RedUint64DivMod32 18446744073709551615 4294967291 = Some (4294967301, 24).
Proof. vm_compute. reflexivity. Qed.
Example div64_normalised : RedUint64DivMod64 18446744073709551615 4294967296 = Some (4294967295, 4294967295).
Proof. vm_compute. reflexivity. Qed.
Example div64_two_digits : RedUint64DivMod64 18446744073709551615 10 = Some (1844674407370955161, 5).
Proof. vm_compute. reflexivity. Qed.
Example muldiv_exact_with_overflow : RedMulDiv64 9223372036854775808 6 4 = Some 13835058055282163712.
Proof. vm_compute. reflexivity. Qed.
Example muldiv_approximate : RedMulDiv64 18446744073709551615 7 10 = Some 12912720851596686127.
Proof. vm_compute. reflexivity. Qed.
Example ratio_small : RedRatio 12133 28545 2 = Some (Some (0, 42)).
Proof. vm_compute. reflexivity. Qed.
Example ratio_large : RedRatio 1539 506 2 = Some (Some (3, 4)).
Proof. vm_compute. reflexivity. Qed.
