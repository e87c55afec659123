(** Model of util/bitmap.c *)
From Verif Require Import Base.

(** [0x80U >> (ulBit & 7U)], used by the three functions below. *)
Definition bit_mask (ulBit : N) : N := N.shiftr 128 (N.land ulBit 7).

(** util/bitmap.c:41-58 RedBitGet. The NULL case is not modelled (a bitmap is a
    byte list); reading past the list yields 0, the theorems require the
    index in range. *)
Definition RedBitGet (bm : list N) (ulBit : N) : bool :=
  negb (N.land (nthN bm (N.shiftr ulBit 3) 0) (bit_mask ulBit) =? 0).

(** util/bitmap.c:69-79 RedBitSet *)
Definition RedBitSet (bm : list N) (ulBit : N) : list N :=
  let i := N.shiftr ulBit 3 in
  updN bm i (N.lor (nthN bm i 0) (bit_mask ulBit)).

(** util/bitmap.c:90-100 RedBitClear; [~mask] is applied as a 32-bit complement and
    truncated to a byte by the store. *)
Definition RedBitClear (bm : list N) (ulBit : N) : list N :=
  let i := N.shiftr ulBit 3 in
  updN bm i (u8 (N.land (nthN bm i 0) (N.lxor UINT32_MAX (bit_mask ulBit)))).

(** Specification view: the bit index named [i] of a bitmap is bit (7 - i mod 8) of byte
    (i / 8). *)
Definition bit_spec (bm : list N) (i : N) : bool :=
  N.testbit (nthN bm (i / 8) 0) (7 - i mod 8).

Lemma land7 i : N.land i 7 = i mod 8.
Proof. change 7 with (N.ones 3). now rewrite N.land_ones. Qed.

Lemma bit_mask_pow i : bit_mask i = 2 ^ (7 - i mod 8).
Proof.
  unfold bit_mask. rewrite land7.
  assert (H : i mod 8 < 8) by (apply N.mod_lt; lia).
  revert H; generalize (i mod 8); intros n H.
  assert (n = 0 \/ n = 1 \/ n = 2 \/ n = 3 \/ n = 4 \/ n = 5 \/ n = 6 \/ n = 7) by lia.
  repeat (destruct H0 as [->|H0]; [reflexivity|]). subst; reflexivity.
Qed.

Lemma land_pow2_testbit a k : negb (N.land a (2 ^ k) =? 0) = N.testbit a k.
Proof.
  destruct (N.eqb_spec (N.land a (2 ^ k)) 0) as [E|E]; simpl.
  - assert (T : N.testbit (N.land a (2 ^ k)) k = false) by now rewrite E, N.bits_0.
    rewrite N.land_spec, N.pow2_bits_true, andb_true_r in T. auto.
  - destruct (N.testbit a k) eqn:T; auto. exfalso; apply E.
    apply N.bits_inj_0; intros m. rewrite N.land_spec, N.pow2_bits_eqb.
    destruct (N.eqb_spec k m); subst; [now rewrite T|now rewrite andb_false_r].
Qed.

Lemma shiftr3 i : N.shiftr i 3 = i / 8.
Proof. now rewrite N.shiftr_div_pow2. Qed.

Lemma RedBitGet_spec bm i : RedBitGet bm i = bit_spec bm i.
Proof.
  unfold RedBitGet, bit_spec. now rewrite bit_mask_pow, shiftr3, land_pow2_testbit.
Qed.

Lemma same_byte_bit i j : i / 8 = j / 8 -> 7 - i mod 8 = 7 - j mod 8 -> i = j.
Proof. lia. Qed.

Lemma testbit_ge256 b m : b < 256 -> 8 <= m -> N.testbit b m = false.
Proof.
  intros. destruct (N.eq_dec b 0) as [->|]; [apply N.bits_0|].
  apply N.bits_above_log2. apply N.log2_lt_pow2; [lia|].
  apply N.lt_le_trans with (2 ^ 8); [exact H|]. apply N.pow_le_mono_r; lia.
Qed.

Lemma RedBitGet_Set bm i j :
  i / 8 < lenN bm -> RedBitGet (RedBitSet bm i) j = if j =? i then true else RedBitGet bm j.
Proof.
  intros H. rewrite !RedBitGet_spec. unfold bit_spec, RedBitSet.
  rewrite bit_mask_pow, shiftr3, nthN_updN by auto.
  destruct (N.eqb_spec (j / 8) (i / 8)) as [E|E].
  - rewrite E, N.lor_spec, N.pow2_bits_eqb.
    destruct (N.eqb_spec j i) as [->|D].
    + now rewrite N.eqb_refl, orb_true_r.
    + destruct (N.eqb_spec (7 - i mod 8) (7 - j mod 8)) as [F|F].
      * exfalso; apply D; symmetry; apply same_byte_bit; auto.
      * now rewrite orb_false_r.
  - destruct (N.eqb_spec j i) as [->|D]; [congruence|auto].
Qed.

Lemma RedBitGet_Clear bm i j :
  i / 8 < lenN bm -> bytes_ok bm ->
  RedBitGet (RedBitClear bm i) j = if j =? i then false else RedBitGet bm j.
Proof.
  intros H W. rewrite !RedBitGet_spec. unfold bit_spec, RedBitClear.
  rewrite bit_mask_pow, shiftr3, nthN_updN by auto.
  destruct (N.eqb_spec (j / 8) (i / 8)) as [E|E].
  - rewrite E. unfold u8. change 256 with (2 ^ 8).
    assert (L : 7 - j mod 8 < 8) by lia.
    rewrite N.mod_pow2_bits_low by auto.
    rewrite N.land_spec, N.lxor_spec, N.pow2_bits_eqb.
    assert (O : N.testbit UINT32_MAX (7 - j mod 8) = true).
    { change UINT32_MAX with (N.ones 32). apply N.ones_spec_low; lia. }
    rewrite O.
    destruct (N.eqb_spec j i) as [->|D].
    + rewrite N.eqb_refl. simpl. now rewrite andb_false_r.
    + destruct (N.eqb_spec (7 - i mod 8) (7 - j mod 8)) as [F|F].
      * exfalso; apply D; symmetry; apply same_byte_bit; auto.
      * simpl. now rewrite andb_true_r.
  - destruct (N.eqb_spec j i) as [->|D]; [congruence|auto].
Qed.

Lemma RedBitSet_length bm i : lenN (RedBitSet bm i) = lenN bm.
Proof. apply updN_length. Qed.
Lemma RedBitClear_length bm i : lenN (RedBitClear bm i) = lenN bm.
Proof. apply updN_length. Qed.

Lemma lor_lt256 a b : a < 256 -> b < 256 -> N.lor a b < 256.
Proof.
  intros. destruct (N.eq_dec (N.lor a b) 0) as [->|NZ]; [lia|].
  apply N.log2_lt_cancel. rewrite N.log2_lor.
  change (N.log2 256) with 8.
  destruct (N.eq_dec a 0) as [->|]; destruct (N.eq_dec b 0) as [->|]; simpl in *; try lia;
  try (rewrite N.max_0_l); try (rewrite N.max_0_r);
  try apply N.max_lub_lt; try (apply N.log2_lt_pow2; [lia|auto]).
Qed.

Lemma bit_mask_lt i : bit_mask i < 256.
Proof.
  rewrite bit_mask_pow. change 256 with (2 ^ 8).
  apply N.pow_lt_mono_r; lia.
Qed.

Lemma RedBitSet_bytes_ok bm i : bytes_ok bm -> bytes_ok (RedBitSet bm i).
Proof.
  intros. apply updN_bytes_ok; auto. apply lor_lt256.
  - now apply nthN_bytes_ok.
  - apply bit_mask_lt.
Qed.

Lemma RedBitClear_bytes_ok bm i : bytes_ok bm -> bytes_ok (RedBitClear bm i).
Proof.
  intros. apply updN_bytes_ok; auto. unfold u8. apply N.mod_lt; lia.
Qed.

(** No byte other than the addressed one changes. *)
Lemma RedBitSet_other_byte bm i k : k <> i / 8 -> nthN (RedBitSet bm i) k 0 = nthN bm k 0.
Proof.
  intros. unfold RedBitSet. rewrite shiftr3.
  destruct (N.lt_decidable (i / 8) (lenN bm)).
  - rewrite nthN_updN by auto. destruct (N.eqb_spec k (i / 8)); congruence.
  - now apply nthN_updN_out.
Qed.
Lemma RedBitClear_other_byte bm i k : k <> i / 8 -> nthN (RedBitClear bm i) k 0 = nthN bm k 0.
Proof.
  intros. unfold RedBitClear. rewrite shiftr3.
  destruct (N.lt_decidable (i / 8) (lenN bm)).
  - rewrite nthN_updN by auto. destruct (N.eqb_spec k (i / 8)); congruence.
  - now apply nthN_updN_out.
Qed.

(** A byte is 0xFF iff its eight bits are all set: the shortcut used by the imap scans. *)
Lemma byte_ff_bits bm k :
  nthN bm k 0 = 255 -> forall i, i / 8 = k -> RedBitGet bm i = true.
Proof.
  intros. rewrite RedBitGet_spec. unfold bit_spec. rewrite H0, H.
  change 255 with (N.ones 8). apply N.ones_spec_low. lia.
Qed.

(** What the user relies on, as an independent statement. *)
Definition bitmap_law_spec : Prop :=
  forall bm i j, bytes_ok bm -> i / 8 < lenN bm ->
    RedBitGet (RedBitSet bm i) j = (if j =? i then true else RedBitGet bm j) /\
    RedBitGet (RedBitClear bm i) j = (if j =? i then false else RedBitGet bm j) /\
    (forall k, k <> i / 8 -> nthN (RedBitSet bm i) k 0 = nthN bm k 0) /\
    (forall k, k <> i / 8 -> nthN (RedBitClear bm i) k 0 = nthN bm k 0) /\
    length (RedBitSet bm i) = length bm /\ length (RedBitClear bm i) = length bm /\
    bytes_ok (RedBitSet bm i) /\ bytes_ok (RedBitClear bm i) /\
    RedBitGet bm i = N.testbit (nthN bm (i / 8) 0) (7 - i mod 8).

Lemma bitmap_law : bitmap_law_spec.
Proof.
  unfold bitmap_law_spec; intros.
  repeat apply conj; auto using RedBitGet_Set, RedBitGet_Clear, RedBitSet_other_byte,
    RedBitClear_other_byte, RedBitSet_bytes_ok, RedBitClear_bytes_ok;
  try apply upd_nth_length. apply RedBitGet_spec.
Qed.

(** Non-vacuity: a 3-byte bitmap, bit 10 is the third bit of the second byte. *)
Example bitmap_example :
  bytes_ok [1; 2; 255] /\ 10 / 8 < lenN [1; 2; 255] /\
  RedBitSet [1; 2; 255] 10 = [1; 34; 255] /\ RedBitClear [1; 34; 255] 10 = [1; 2; 255] /\
  RedBitGet [1; 34; 255] 10 = true /\ RedBitGet [1; 2; 255] 10 = false.
Proof. repeat split; try reflexivity. repeat constructor; reflexivity. Qed.
