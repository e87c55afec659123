(** Model of util/crc.c: the three CRC-32 implementations, and what they compute. *)
From Verif Require Import Base Endian CrcTables.

(** util/crc.c:54 *)
Definition CCITT_32_POLYNOMIAL : N := 0xEDB88320.

(** One iteration of the inner loop, util/crc.c:95-98. *)
Definition crc_bit (c : N) : N :=
  N.lxor (N.land c 1 * CCITT_32_POLYNOMIAL) (N.shiftr c 1).

Fixpoint iter {A} (n : nat) (f : A -> A) (x : A) : A :=
  match n with O => x | S m => iter m f (f x) end.

(** [~x] on uint32_t. *)
Definition not32 (x : N) : N := N.lxor UINT32_MAX x.

(** util/crc.c:68-105 RedCrc32Update, bitwise variant.  The buffer is the list of its bytes; NULL is
    not modelled. *)
Definition bitwise_byte (c b : N) : N := iter 8 crc_bit (N.lxor c b).
Definition RedCrc32Update_bitwise (ulInitCrc32 : N) (buf : list N) : N :=
  not32 (fold_left bitwise_byte buf (not32 ulInitCrc32)).

(** util/crc.c:120-184 RedCrc32Update, Sarwate variant. *)
Definition sarwate_byte (c b : N) : N :=
  N.lxor (N.shiftr c 8) (nthN sarwate_table (N.land (N.lxor c b) 0xFF) 0).
Definition RedCrc32Update_sarwate (ulInitCrc32 : N) (buf : list N) : N :=
  not32 (fold_left sarwate_byte buf (not32 ulInitCrc32)).

(** util/crc.c:511,556: byte step of the slice-by-8 variant: index scaled by 8 (column 0). *)
Definition slice8_byte (c b : N) : N :=
  N.lxor (N.shiftr c 8) (nthN slice8_table (N.shiftl (N.land (N.lxor c b) 0xFF) 3) 0).

(** util/crc.c:493-500: [pulXor...] points at column k of the table, so that indexing it with
    [x << 3] reads element [8*x + k]. *)
Definition slice8_col (k x : N) : N := nthN slice8_table (k + N.shiftl x 3) 0.

(** util/crc.c:526-547: one 8-byte slice. The 32-bit little-endian load of b0..b3. *)
Definition slice8_step (c : N) (b0 b1 b2 b3 b4 b5 b6 b7 : N) : N :=
  let c1 := N.lxor c (N.lor (N.lor (N.lor b0 (N.shiftl b1 8)) (N.shiftl b2 16)) (N.shiftl b3 24)) in
  N.lxor (N.lxor (N.lxor (N.lxor (N.lxor (N.lxor (N.lxor
    (slice8_col 4 (N.land (N.shiftr c1 24) 0xFF))
    (slice8_col 5 (N.land (N.shiftr c1 16) 0xFF)))
    (slice8_col 6 (N.land (N.shiftr c1 8) 0xFF)))
    (slice8_col 7 (N.land c1 0xFF)))
    (slice8_col 0 b7)) (slice8_col 1 b6)) (slice8_col 2 b5)) (slice8_col 3 b4).

(** util/crc.c:516-559: [ulSliceLen] rounds the remaining length down to a multiple of eight; [n] is
    the number of slices, then the remaining bytes one at a time. *)
Fixpoint slice8_loop (n : nat) (c : N) (buf : list N) : N :=
  match n with
  | O => fold_left slice8_byte buf c
  | S m => slice8_loop m (slice8_step c (nth 0 buf 0) (nth 1 buf 0) (nth 2 buf 0) (nth 3 buf 0)
                                        (nth 4 buf 0) (nth 5 buf 0) (nth 6 buf 0) (nth 7 buf 0))
                         (skipn 8 buf)
  end.

(** util/crc.c:200-565 RedCrc32Update, slice-by-8 variant.  [unaligned] is the number of leading bytes
    before the first aligned address (depends on the buffer address, lines 509-514). *)
Definition RedCrc32Update_slice8 (unaligned : nat) (ulInitCrc32 : N) (buf : list N) : N :=
  let rest := skipn unaligned buf in
  not32 (slice8_loop (Nat.div (length rest) 8)
          (fold_left slice8_byte (firstn unaligned buf) (not32 ulInitCrc32)) rest).

(** util/crc.c:581-603 RedCrcNode: skips the first eight bytes of the block. *)
Definition RedCrcNode (upd : N -> list N -> N) (block : list N) : N := upd 0 (skipn 8 block).

(* ------------------------------------------------------------------ *)
(** * GF(2)-linearity of one step *)

Lemma land1 c : N.land c 1 = if N.testbit c 0 then 1 else 0.
Proof. change 1 with (N.ones 1). rewrite N.land_ones. change (2^1) with 2.
  rewrite <- N.bit0_mod. now destruct (N.testbit c 0). Qed.

Lemma crc_bit_alt c :
  crc_bit c = N.lxor (if N.testbit c 0 then CCITT_32_POLYNOMIAL else 0) (N.shiftr c 1).
Proof. unfold crc_bit. rewrite land1. destruct (N.testbit c 0); rewrite ?N.mul_1_l, ?N.mul_0_l; auto. Qed.

Lemma lxor_4 a b c d : N.lxor (N.lxor a b) (N.lxor c d) = N.lxor (N.lxor a c) (N.lxor b d).
Proof. rewrite !N.lxor_assoc. f_equal. rewrite <- !N.lxor_assoc. f_equal. apply N.lxor_comm. Qed.

Lemma crc_bit_lin a b : crc_bit (N.lxor a b) = N.lxor (crc_bit a) (crc_bit b).
Proof.
  rewrite !crc_bit_alt, N.shiftr_lxor, N.lxor_spec, (lxor_4 _ (N.shiftr a 1)). f_equal.
  destruct (N.testbit a 0), (N.testbit b 0); cbn [xorb]; rewrite ?N.lxor_0_r, ?N.lxor_0_l, ?N.lxor_nilpotent; auto.
Qed.

Lemma crc_bit_lt c : c < 2 ^ 32 -> crc_bit c < 2 ^ 32.
Proof.
  intros. rewrite crc_bit_alt. apply lxor_lt_pow2.
  - destruct (N.testbit c 0); reflexivity.
  - now apply shiftr_lt_pow2.
Qed.

Lemma crc_bit_shiftl1 c : crc_bit (N.shiftl c 1) = c.
Proof.
  rewrite crc_bit_alt. rewrite N.shiftl_spec_low by lia.
  rewrite N.lxor_0_l, N.shiftr_shiftl_l by lia. apply N.shiftl_0_r.
Qed.

Lemma crc_bit_nz c : c < 2 ^ 32 -> c <> 0 -> crc_bit c <> 0.
Proof.
  intros L NZ E. rewrite crc_bit_alt in E. apply N.lxor_eq in E.
  destruct (N.testbit c 0) eqn:T.
  - assert (T' : N.testbit (N.shiftr c 1) 31 = true) by now rewrite <- E.
    rewrite N.shiftr_spec in T' by lia.
    rewrite <- (N.mod_small c (2 ^ 32)) in T' by auto.
    rewrite N.mod_pow2_bits_high in T' by lia. discriminate.
  - rewrite N.shiftr_div_pow2 in E. change (2 ^ 1) with 2 in E.
    rewrite N.bit0_eqb in T. apply N.eqb_neq in T. apply T.
    pose proof (N.div_mod' c 2). pose proof (N.mod_lt c 2). lia.
Qed.

Lemma iter_add {A} n m (f : A -> A) x : iter (n + m) f x = iter m f (iter n f x).
Proof. revert x; induction n; simpl; auto. Qed.
Lemma iter_lin n a b : iter n crc_bit (N.lxor a b) = N.lxor (iter n crc_bit a) (iter n crc_bit b).
Proof. revert a b; induction n; simpl; intros; auto. now rewrite crc_bit_lin, IHn. Qed.
Lemma iter_lt n c : c < 2 ^ 32 -> iter n crc_bit c < 2 ^ 32.
Proof. revert c; induction n; simpl; intros; auto using crc_bit_lt. Qed.
Lemma iter_nz n c : c < 2 ^ 32 -> c <> 0 -> iter n crc_bit c <> 0.
Proof. revert c; induction n; simpl; intros; auto using crc_bit_lt, crc_bit_nz. Qed.
Lemma iter_shiftl n c : iter n crc_bit (N.shiftl c (N.of_nat n)) = c.
Proof.
  revert c; induction n; intros; [apply N.shiftl_0_r|].
  replace (N.of_nat (S n)) with (N.of_nat n + 1) by lia.
  rewrite <- N.shiftl_shiftl. simpl. now rewrite crc_bit_shiftl1.
Qed.
Lemma iter_0 n : iter n crc_bit 0 = 0.
Proof. induction n; simpl; auto. Qed.

Lemma split_low8 c : c = N.lxor (N.land c 0xFF) (N.shiftl (N.shiftr c 8) 8).
Proof.
  apply N.bits_inj; intros m. rewrite N.lxor_spec.
  change 0xFF with (N.ones 8). destruct (N.lt_ge_cases m 8).
  - rewrite N.land_ones, N.mod_pow2_bits_low, N.shiftl_spec_low by auto. now rewrite xorb_false_r.
  - rewrite N.land_ones, N.mod_pow2_bits_high, N.shiftl_spec_high, N.shiftr_spec by lia.
    rewrite xorb_false_l. f_equal; lia.
Qed.

(** Both tables, all 256 rows: finite facts decided inside the kernel. *)
Lemma sarwate_table_ok x : x < 256 -> nthN sarwate_table x 0 = iter 8 crc_bit x.
Proof.
  intros. apply N.eqb_eq.
  apply (all_below_spec 256 (fun x => nthN sarwate_table x 0 =? iter 8 crc_bit x)); [vm_compute; reflexivity|exact H].
Qed.

Lemma slice8_col_ok k x : k < 8 -> x < 256 ->
  slice8_col k x = iter (8 * S (N.to_nat k)) crc_bit x.
Proof.
  intros Hk Hx. apply N.eqb_eq.
  assert (A : all_below 8 (fun k => all_below 256 (fun x =>
     slice8_col k x =? iter (8 * S (N.to_nat k)) crc_bit x)) = true) by (vm_compute; reflexivity).
  pose proof (all_below_spec _ _ A k Hk) as B.
  exact (all_below_spec _ _ B x Hx).
Qed.

Lemma land_ff_lt c : N.land c 0xFF < 256.
Proof. change 256 with (2 ^ 8). now apply land_lt_pow2. Qed.
Lemma land_ff_small c : c < 256 -> N.land c 0xFF = c.
Proof. intros. change 0xFF with (N.ones 8). rewrite N.land_ones. now apply N.mod_small. Qed.

Lemma step8_table c : iter 8 crc_bit c = N.lxor (N.shiftr c 8) (iter 8 crc_bit (N.land c 0xFF)).
Proof.
  rewrite (split_low8 c) at 1. rewrite iter_lin, N.lxor_comm. f_equal. apply (iter_shiftl 8).
Qed.

Lemma shiftr8_byte b : b < 256 -> N.shiftr b 8 = 0.
Proof. intros. now apply lt_pow2_shiftr. Qed.

Lemma sarwate_byte_ok c b : b < 256 -> sarwate_byte c b = bitwise_byte c b.
Proof.
  intros. unfold sarwate_byte, bitwise_byte. rewrite step8_table, N.shiftr_lxor, (shiftr8_byte b), N.lxor_0_r by auto.
  now rewrite sarwate_table_ok by apply land_ff_lt.
Qed.

Lemma slice8_byte_ok c b : b < 256 -> slice8_byte c b = bitwise_byte c b.
Proof.
  intros. unfold slice8_byte, bitwise_byte. rewrite step8_table, N.shiftr_lxor, (shiftr8_byte b), N.lxor_0_r by auto.
  change (nthN slice8_table (N.shiftl ?x 3) 0) with (slice8_col 0 x).
  now rewrite slice8_col_ok by (try apply land_ff_lt; lia).
Qed.

(** Bytes fed one after the other equal one big little-endian number xored in at once. *)
Lemma iter8_le c b l : iter 8 crc_bit (N.lxor c (b + 256 * l)) = N.lxor (iter 8 crc_bit (N.lxor c b)) (iter 8 crc_bit (256 * l)) \/ ~ b < 256.
Proof.
  destruct (N.lt_decidable b 256); auto. left.
  assert (E : b + 256 * l = N.lxor b (256 * l)).
  { rewrite <- N.lxor_comm, (N.add_comm b). symmetry.
    replace (256 * l) with (N.shiftl l 8) by (rewrite N.shiftl_mul_pow2; change (2^8) with 256; lia).
    rewrite N.add_nocarry_lxor; auto.
    apply N.bits_inj_0; intros m. rewrite N.land_spec. destruct (N.lt_ge_cases m 8).
    - now rewrite N.shiftl_spec_low.
    - rewrite <- (N.mod_small b (2^8)) by auto. rewrite N.mod_pow2_bits_high by auto. apply andb_false_r. }
  rewrite E, <- N.lxor_assoc. apply iter_lin.
Qed.

Lemma fold_bitwise_le buf c : bytes_ok buf ->
  fold_left bitwise_byte buf c = iter (8 * length buf) crc_bit (N.lxor c (of_le_bytes buf)).
Proof.
  intros H; revert c; induction H; intros; cbn [fold_left of_le_bytes length].
  - now rewrite N.lxor_0_r.
  - rewrite IHForall. replace (8 * S (length l))%nat with (8 + 8 * length l)%nat by lia.
    rewrite iter_add. f_equal. unfold bitwise_byte.
    destruct (iter8_le c x (of_le_bytes l)) as [E|E]; [|contradiction]. rewrite E. f_equal.
    replace (256 * of_le_bytes l) with (N.shiftl (of_le_bytes l) (N.of_nat 8))
      by (rewrite N.shiftl_mul_pow2; change (2 ^ N.of_nat 8) with 256; lia).
    now rewrite iter_shiftl.
Qed.

Lemma lxor_bytes4 b0 b1 b2 b3 : b0 < 256 -> b1 < 256 -> b2 < 256 -> b3 < 256 ->
  N.lor (N.lor (N.lor b0 (N.shiftl b1 8)) (N.shiftl b2 16)) (N.shiftl b3 24) =
  N.lxor (N.lxor (N.lxor b0 (N.shiftl b1 8)) (N.shiftl b2 16)) (N.shiftl b3 24).
Proof.
  assert (G : forall a b k, a < 2 ^ k -> N.lor a (N.shiftl b k) = N.lxor a (N.shiftl b k)).
  { intros. rewrite <- N.lxor_lor; auto. apply N.bits_inj_0; intros m. rewrite N.land_spec.
    destruct (N.lt_ge_cases m k).
    - now rewrite N.shiftl_spec_low, andb_false_r.
    - rewrite <- (N.mod_small a (2^k)) by auto. now rewrite N.mod_pow2_bits_high. }
  assert (S : forall b k, b < 256 -> N.shiftl b k < 2 ^ (8 + k)).
  { intros. rewrite N.shiftl_mul_pow2, N.pow_add_r. change (2 ^ 8) with 256.
    apply N.mul_lt_mono_pos_r; auto. apply N.neq_0_lt_0, N.pow_nonzero; lia. }
  intros. rewrite (G b0 b1) by auto.
  rewrite (G _ b2), (G _ b3); auto; repeat apply lxor_lt_pow2;
   try (apply (S b1 8); auto); try (apply (S b2 16); auto);
   try (eapply N.lt_trans; [eassumption|reflexivity]); try (eapply N.lt_trans; [apply (S b1 8); auto|reflexivity]).
Qed.

Lemma shiftr_byte_lt c (n : N) : c < 2 ^ 32 -> N.shiftr c 24 < 256.
Proof. intros. change 256 with (2^8). rewrite lt_pow2_shiftr, N.shiftr_shiftr. now apply lt_pow2_shiftr. Qed.

(** eight byte steps written as columns *)
Lemma step_col c (n : nat) :
  iter (8 * S n) crc_bit c =
  N.lxor (iter (8 * S n) crc_bit (N.land c 0xFF)) (iter (8 * n) crc_bit (N.shiftr c 8)).
Proof.
  rewrite (split_low8 c) at 1. rewrite iter_lin. f_equal.
  replace (8 * S n)%nat with (8 + 8 * n)%nat by lia. rewrite iter_add. f_equal.
  apply (iter_shiftl 8).
Qed.

Opaque iter.
Lemma slice8_step_ok c b0 b1 b2 b3 b4 b5 b6 b7 : c < 2 ^ 32 ->
  b0 < 256 -> b1 < 256 -> b2 < 256 -> b3 < 256 -> b4 < 256 -> b5 < 256 -> b6 < 256 -> b7 < 256 ->
  slice8_step c b0 b1 b2 b3 b4 b5 b6 b7 = fold_left bitwise_byte [b0;b1;b2;b3;b4;b5;b6;b7] c.
Proof.
  intros. cbn [fold_left]. unfold slice8_step. cbv zeta.
  rewrite lxor_bytes4 by auto.
  set (w := N.lxor (N.lxor (N.lxor b0 (N.shiftl b1 8)) (N.shiftl b2 16)) (N.shiftl b3 24)).
  assert (W : w < 2 ^ 32).
  { assert (S : forall b k, b < 256 -> k <= 24 -> N.shiftl b k < 2 ^ 32).
    { intros. rewrite N.shiftl_mul_pow2. apply N.lt_le_trans with (2 ^ 8 * 2 ^ k).
      - apply N.mul_lt_mono_pos_r; auto. apply N.neq_0_lt_0, N.pow_nonzero; lia.
      - rewrite <- N.pow_add_r. apply N.pow_le_mono_r; lia. }
    unfold w. repeat apply lxor_lt_pow2; auto; try (apply S; auto; lia).
    apply N.lt_trans with 256; auto; reflexivity. }
  set (c1 := N.lxor c w).
  assert (C1 : c1 < 2 ^ 32) by (apply lxor_lt_pow2; auto).
  rewrite !slice8_col_ok by (try apply land_ff_lt; auto; lia).
  change (N.to_nat 0) with 0%nat. change (N.to_nat 1) with 1%nat. change (N.to_nat 2) with 2%nat.
  change (N.to_nat 3) with 3%nat. change (N.to_nat 4) with 4%nat. change (N.to_nat 5) with 5%nat.
  change (N.to_nat 6) with 6%nat. change (N.to_nat 7) with 7%nat.
  (* left: the four crc columns collapse to iter 64 c1 *)
  assert (L : iter (8 * 8) crc_bit c1 =
     N.lxor (iter (8*8) crc_bit (N.land c1 0xFF))
       (N.lxor (iter (8*7) crc_bit (N.land (N.shiftr c1 8) 0xFF))
          (N.lxor (iter (8*6) crc_bit (N.land (N.shiftr c1 16) 0xFF))
             (iter (8*5) crc_bit (N.land (N.shiftr c1 24) 0xFF))))).
  { rewrite (step_col c1 7), (step_col (N.shiftr c1 8) 6), (step_col (N.shiftr (N.shiftr c1 8) 8) 5).
    rewrite !N.shiftr_shiftr. change (8 + 8) with 16. change (16 + 8) with 24.
    rewrite (land_ff_small (N.shiftr c1 24)) by (apply (shiftr_byte_lt c1 0); auto). reflexivity. }
  (* right: unfold the byte steps by linearity *)
  assert (R : forall x y n, iter 8 crc_bit (N.lxor (iter n crc_bit x) y) =
                N.lxor (iter (n + 8) crc_bit x) (iter 8 crc_bit y)).
  { intros. rewrite iter_lin, iter_add. reflexivity. }
  assert (Wd : N.lxor c w = N.lxor (N.lxor (N.lxor (N.lxor c b0) (N.shiftl b1 8)) (N.shiftl b2 16)) (N.shiftl b3 24)).
  { unfold w. now rewrite !N.lxor_assoc. }
  transitivity (N.lxor (N.lxor (N.lxor (N.lxor (iter (8*8) crc_bit c1) (iter (8*1) crc_bit b7))
                  (iter (8*2) crc_bit b6)) (iter (8*3) crc_bit b5)) (iter (8*4) crc_bit b4)).
  { rewrite L. f_equal. f_equal. f_equal. f_equal.
    rewrite (N.lxor_comm (iter (8*8) crc_bit _)), (N.lxor_comm (iter (8*7) crc_bit _)),
            (N.lxor_comm (iter (8*6) crc_bit _)). reflexivity. }
  unfold c1. rewrite Wd.
  assert (SH : forall (n m : nat) b, N.of_nat m = N.of_nat m -> iter (m + n) crc_bit (N.shiftl b (N.of_nat m)) = iter n crc_bit b).
  { intros. rewrite iter_add, iter_shiftl. reflexivity. }
  rewrite !iter_lin.
  assert (S1 : iter (8*8) crc_bit (N.shiftl b1 8) = iter 56 crc_bit b1) by exact (SH 56%nat 8%nat b1 eq_refl).
  assert (S2 : iter (8*8) crc_bit (N.shiftl b2 16) = iter 48 crc_bit b2) by exact (SH 48%nat 16%nat b2 eq_refl).
  assert (S3 : iter (8*8) crc_bit (N.shiftl b3 24) = iter 40 crc_bit b3) by exact (SH 40%nat 24%nat b3 eq_refl).
  rewrite S1, S2, S3.
  unfold bitwise_byte. rewrite !iter_lin.
  assert (M : forall n m x, iter m crc_bit (iter n crc_bit x) = iter (n + m) crc_bit x)
    by (intros; now rewrite iter_add).
  rewrite !M. cbn [Nat.add Nat.mul].
  clear. 
  set (x0 := iter 64 crc_bit b0). set (xc := iter 64 crc_bit c).
  set (x1 := iter 56 crc_bit b1). set (x2 := iter 48 crc_bit b2). set (x3 := iter 40 crc_bit b3).
  set (x4 := iter 32 crc_bit b4). set (x5 := iter 24 crc_bit b5). set (x6 := iter 16 crc_bit b6). set (x7 := iter 8 crc_bit b7).
  clearbody x0 xc x1 x2 x3 x4 x5 x6 x7.
  apply N.bits_inj; intros m. rewrite !N.lxor_spec.
  destruct (N.testbit xc m), (N.testbit x0 m), (N.testbit x1 m), (N.testbit x2 m), (N.testbit x3 m),
     (N.testbit x4 m), (N.testbit x5 m), (N.testbit x6 m), (N.testbit x7 m); reflexivity.
Qed.
Transparent iter.

Lemma fold_bytes_lt buf c : bytes_ok buf -> c < 2 ^ 32 -> fold_left bitwise_byte buf c < 2 ^ 32.
Proof.
  intros H; revert c; induction H; intros; cbn [fold_left]; auto.
  apply IHForall. apply iter_lt, lxor_lt_pow2; auto. eapply N.lt_trans; [eassumption|reflexivity].
Qed.

Lemma fold_sarwate buf c : bytes_ok buf -> fold_left sarwate_byte buf c = fold_left bitwise_byte buf c.
Proof.
  intros H; revert c; induction H; intros; cbn [fold_left]; auto.
  now rewrite sarwate_byte_ok, IHForall.
Qed.
Lemma fold_slice8 buf c : bytes_ok buf -> fold_left slice8_byte buf c = fold_left bitwise_byte buf c.
Proof.
  intros H; revert c; induction H; intros; cbn [fold_left]; auto.
  now rewrite slice8_byte_ok, IHForall.
Qed.

Lemma slice8_loop_ok n buf c : bytes_ok buf -> c < 2 ^ 32 -> (8 * n <= length buf)%nat ->
  slice8_loop n c buf = fold_left bitwise_byte buf c.
Proof.
  revert buf c; induction n; intros buf c H Hc Hl; cbn [slice8_loop].
  - now apply fold_slice8.
  - destruct buf as [|b0 [|b1 [|b2 [|b3 [|b4 [|b5 [|b6 [|b7 t]]]]]]]]; simpl in Hl; try lia.
    unfold bytes_ok in H.
    repeat match goal with H : Forall _ (_ :: _) |- _ => inversion H; clear H; subst end.
    change (b0 :: b1 :: b2 :: b3 :: b4 :: b5 :: b6 :: b7 :: t) with ([b0;b1;b2;b3;b4;b5;b6;b7] ++ t).
    rewrite fold_left_app. cbn [nth skipn app].
    rewrite slice8_step_ok by assumption.
    apply IHn.
    + assumption.
    + apply fold_bytes_lt; [repeat constructor; assumption|assumption].
    + lia.
Qed.

Lemma not32_lt c : c < 2 ^ 32 -> not32 c < 2 ^ 32.
Proof. intros. apply lxor_lt_pow2; auto. reflexivity. Qed.
Lemma not32_inv c : not32 (not32 c) = c.
Proof. unfold not32. now rewrite <- N.lxor_assoc, N.lxor_nilpotent, N.lxor_0_l. Qed.

Lemma Forall_firstn {A} (P : A -> Prop) n l : Forall P l -> Forall P (firstn n l).
Proof. intros H; revert n; induction H; destruct n; simpl; constructor; auto. Qed.
Lemma Forall_skipn {A} (P : A -> Prop) n l : Forall P l -> Forall P (skipn n l).
Proof. intros H; revert n; induction H; destruct n; simpl; auto. Qed.

(** C11 *)
Lemma crc_variants_agree init buf unaligned :
  init < 2 ^ 32 -> bytes_ok buf ->
  RedCrc32Update_sarwate init buf = RedCrc32Update_bitwise init buf /\
  RedCrc32Update_slice8 unaligned init buf = RedCrc32Update_bitwise init buf.
Proof.
  intros Hi Hb. split; unfold RedCrc32Update_sarwate, RedCrc32Update_slice8, RedCrc32Update_bitwise; f_equal.
  - now apply fold_sarwate.
  - rewrite fold_slice8 by now apply Forall_firstn.
    rewrite slice8_loop_ok.
    + now rewrite <- fold_left_app, firstn_skipn.
    + now apply Forall_skipn.
    + apply fold_bytes_lt; [now apply Forall_firstn|]. now apply not32_lt.
    + pose proof (Nat.div_mod (length (skipn unaligned buf)) 8 ltac:(lia)). lia.
Qed.

(** C12, composition *)
Lemma crc_compose init a b :
  RedCrc32Update_bitwise init (a ++ b) = RedCrc32Update_bitwise (RedCrc32Update_bitwise init a) b.
Proof. unfold RedCrc32Update_bitwise. now rewrite not32_inv, fold_left_app. Qed.

Lemma crc_lt init buf : init < 2 ^ 32 -> bytes_ok buf -> RedCrc32Update_bitwise init buf < 2 ^ 32.
Proof. intros. apply not32_lt, fold_bytes_lt; auto. now apply not32_lt. Qed.

(** Bit k of a buffer, numbered from the least significant bit of the first byte. *)
Definition buf_bit (l : list N) (k : N) : bool := N.testbit (nthN l (k / 8) 0) (k mod 8).

(** C12, burst detection: two different buffers of equal length that agree outside some window of 32
    consecutive bits have different checksums. *)
Lemma crc_burst init a b p :
  bytes_ok a -> bytes_ok b -> length a = length b -> a <> b ->
  (forall k, k < p \/ p + 32 <= k -> buf_bit a k = buf_bit b k) ->
  RedCrc32Update_bitwise init a <> RedCrc32Update_bitwise init b.
Proof.
  intros Ha Hb HL HN HW E. unfold RedCrc32Update_bitwise in E.
  assert (E1 : fold_left bitwise_byte a (not32 init) = fold_left bitwise_byte b (not32 init)).
  { rewrite <- (not32_inv (fold_left bitwise_byte a _)), E. apply not32_inv. }
  rewrite !fold_bitwise_le in E1 by auto. rewrite HL in E1.
  assert (E2 : iter (8 * length b) crc_bit (N.lxor (of_le_bytes a) (of_le_bytes b)) = 0).
  { rewrite !iter_lin in *. 
    assert (X : forall u v w, N.lxor u v = N.lxor u w -> v = w).
    { intros u v w X. assert (N.lxor u (N.lxor u v) = N.lxor u (N.lxor u w)) by now rewrite X.
      now rewrite <- !N.lxor_assoc, N.lxor_nilpotent, !N.lxor_0_l in H. }
    apply X in E1. rewrite E1. apply N.lxor_nilpotent. }
  set (e := N.lxor (of_le_bytes a) (of_le_bytes b)) in *.
  assert (ENZ : e <> 0).
  { intros Z. apply N.lxor_eq in Z. apply HN.
    rewrite <- (le_bytes_of_le a), <- (le_bytes_of_le b) by auto. now rewrite Z, HL. }
  assert (EB : forall k, N.testbit e k = xorb (buf_bit a k) (buf_bit b k)).
  { intros. unfold e, buf_bit. now rewrite N.lxor_spec, !of_le_bytes_testbit. }
  set (w := N.shiftr e p).
  assert (EW : e = N.shiftl w p).
  { apply N.bits_inj; intros k. destruct (N.lt_ge_cases k p).
    - rewrite N.shiftl_spec_low, EB, HW by auto. apply xorb_nilpotent.
    - unfold w. rewrite N.shiftl_spec_high, N.shiftr_spec by lia. f_equal; lia. }
  assert (WL : w < 2 ^ 32).
  { rewrite lt_pow2_shiftr. apply N.bits_inj_0; intros k. unfold w.
    rewrite !N.shiftr_spec, EB, HW by lia. apply xorb_nilpotent. }
  assert (WNZ : w <> 0) by (intros Z; apply ENZ; rewrite EW, Z; apply N.shiftl_0_l).
  assert (PL : p < 8 * N.of_nat (length b)).
  { destruct (N.lt_ge_cases p (8 * N.of_nat (length b))); auto. exfalso. apply ENZ.
    assert (LT : e < 2 ^ p).
    { apply N.lt_le_trans with (2 ^ (8 * N.of_nat (length b))); [|apply N.pow_le_mono_r; lia].
      rewrite N.pow_mul_r. change (2 ^ 8) with 256.
      assert (G : forall l, bytes_ok l -> of_le_bytes l < 2 ^ (8 * N.of_nat (length l))).
      { intros. rewrite N.pow_mul_r. now apply of_le_bytes_lt. }
      pose proof (G a Ha). pose proof (G b Hb). rewrite HL in H0.
      assert (e < 2 ^ (8 * N.of_nat (length b))) by now apply lxor_lt_pow2.
      rewrite N.pow_mul_r in H2. exact H2. }
    unfold w in EW. apply lt_pow2_shiftr in LT. rewrite LT in EW. rewrite EW. apply N.shiftl_0_l. }
  assert (SP : (8 * length b = N.to_nat p + (8 * length b - N.to_nat p))%nat) by lia.
  rewrite SP, iter_add, EW in E2.
  replace (N.shiftl w p) with (N.shiftl w (N.of_nat (N.to_nat p))) in E2 by now rewrite N2Nat.id.
  rewrite iter_shiftl in E2.
  revert E2. now apply iter_nz.
Qed.

(** Non-vacuity and known-answer check: CRC-32 of "123456789" is 0xCBF43926. *)
Example crc_example :
  let m := [0x31;0x32;0x33;0x34;0x35;0x36;0x37;0x38;0x39] in
  bytes_ok m /\ RedCrc32Update_bitwise 0 m = 0xCBF43926 /\
  RedCrc32Update_sarwate 0 m = 0xCBF43926 /\ RedCrc32Update_slice8 1 0 m = 0xCBF43926 /\
  RedCrc32Update_slice8 0 0 m = 0xCBF43926.
Proof. repeat split; try (vm_compute; reflexivity). repeat constructor. Qed.
Example crc_burst_example :
  let a := [1;2;3;4;5;6;7;8] in let b := [1;2;3;0xFF;0xFE;0xFD;0x7C;8] in
  a <> b /\ forall k, k < 24 \/ 24 + 32 <= k -> buf_bit a k = buf_bit b k.
Proof.
  split; [discriminate|]. intros k [H|H]; unfold buf_bit, nthN.
  - assert (D : k / 8 = 0 \/ k / 8 = 1 \/ k / 8 = 2) by lia. destruct D as [->|[->| ->]]; reflexivity.
  - destruct (N.eq_dec (k / 8) 7) as [->|]; [reflexivity|].
    rewrite !nth_overflow; auto; simpl; lia.
Qed.
