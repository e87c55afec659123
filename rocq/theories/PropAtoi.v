(** C49: numerals are converted to the numbers they denote (tests/util/atoi.c). *)
From Verif Require Import Base Atoi AtoiSpec AtoiP.
Ltac Zify.zify_post_hook ::= idtac.

(** RedAtoI: an optional sign, at least one decimal digit, then anything that is no digit. *)
Theorem C49_atoi : forall cs ds rest, numeral 10 cs ds -> ends 10 rest -> pos 10 ds < 2 ^ 31 ->
  RedAtoI (cs ++ rest) = Z.of_N (pos 10 ds) /\
  RedAtoI (43 :: cs ++ rest) = Z.of_N (pos 10 ds) /\
  RedAtoI (45 :: cs ++ rest) = (- Z.of_N (pos 10 ds))%Z.
Proof.
  intros cs ds rest NU E L. change (2 ^ 31) with 2147483648 in L. rewrite (atoi_pos cs ds) by auto. rewrite i32_id by lia. split; auto.
  assert (V : atoi_loop (cs ++ rest) 0 = Z.of_N (pos 10 ds)) by (rewrite (atoi_value cs ds) by (auto; apply NU); apply i32_id; lia).
  unfold RedAtoI, at_. cbn [nth]. change (43 =? 43) with true. change (45 =? 43) with false. change (45 =? 45) with true. cbv iota. cbn [skipn].
  rewrite V. split; apply eq_trans with (2 := eq_refl); rewrite i32_id; lia.
Qed.
(** Hexadecimal numerals without prefix: the value (modulo 2^64) and the end of the numeral; NULL without a digit. *)
Theorem C49_hex64 :
  (forall cs ds rest, numeral 16 cs ds -> ends 16 rest -> RedHtoULL (cs ++ rest) = Some (pos 16 ds mod 2 ^ 64, length cs)) /\
  (forall s, ends 16 s -> RedHtoULL s = None).
Proof. split; [apply hex_loop|apply hex_none]. Qed.
(** The 32-bit variant refuses what does not fit in 32 bits -- and 0xFFFFFFFF as well (C49_hex32_max_refuted). *)
Theorem C49_hex32 :
  (forall cs ds rest, numeral 16 cs ds -> ends 16 rest -> pos 16 ds < 2 ^ 64 ->
     RedHtoUL (cs ++ rest) = if pos 16 ds <? 2 ^ 32 - 1 then Some (pos 16 ds, length cs) else None) /\
  (forall s, ends 16 s -> RedHtoUL s = None).
Proof.
  split.
  - intros cs ds rest NU E L. unfold RedHtoUL. rewrite (hex_loop cs ds) by auto. unfold u64. rewrite N.mod_small by exact L. reflexivity.
  - intros s E. unfold RedHtoUL. rewrite hex_none by auto. reflexivity.
Qed.

Lemma at_app (x y : list N) i : at_ (x ++ y) (length x + i) = at_ y i.
Proof. unfold at_. rewrite app_nth2 by lia. f_equal. lia. Qed.
Lemma skipn_app_len (x y : list N) : skipn (length x) (x ++ y) = y.
Proof. induction x; auto. Qed.
(** A decimal numeral is not taken for a prefix *)
Lemma no_prefix cs ds rest : numeral 10 cs ds -> ends 10 rest -> ~ (cs = [48] /\ begins_x rest) ->
  (at_ (cs ++ rest) 0 =? 48) && ((at_ (cs ++ rest) 1 =? 120) || (at_ (cs ++ rest) 1 =? 88)) = false.
Proof.
  intros NU E NX. destruct (num_head _ _ _ rest NU) as (c & d & cs' & ds' & -> & -> & D & F & _). unfold at_. cbn [app nth].
  destruct (N.eqb_spec c 48) as [->|]; auto. cbn [andb]. inversion F as [|c2 d2 r2 rd2 D2 F2]; subst; cbn [app].
  - destruct rest as [|x r]; auto. cbn [nth]. destruct (N.eqb_spec x 120) as [->|]; [exfalso; apply NX; split; auto; exists r; auto|].
    destruct (N.eqb_spec x 88) as [->|]; auto. exfalso. apply NX. split; auto. exists r. auto.
  - destruct (dec_char c2 d2 D2) as (_ & ->). destruct D2 as (DL & _). cbn [nth]. destruct (N.eqb_spec (48 + d2) 120); [lia|]. destruct (N.eqb_spec (48 + d2) 88); [lia|]. reflexivity.
Qed.
Lemma num_at b cs ds rest : numeral b cs ds -> exists d, digit b (at_ (cs ++ rest) 0) d.
Proof. intros NU. destruct (num_head _ _ _ rest NU) as (c & d & cs' & ds' & -> & -> & D & _ & _). exists d. exact D. Qed.
Lemma num_no_sign b cs ds rest : numeral b cs ds -> at_ (cs ++ rest) 0 =? 45 = false.
Proof. intros NU. destruct (num_at b cs ds rest NU) as (d & D & H). apply N.eqb_neq. lia. Qed.

(** What RedNtoULL does after the sign: the same text twice, so it is stated once. *)
Definition after_sign64 (neg : bool) (i : nat) (s : list N) : option (N * nat) :=
  if (at_ s i =? 48) && ((at_ s (i + 1) =? 120) || (at_ s (i + 1) =? 88)) then
    let i := (i + 2)%nat in
    if ISDIGIT (at_ s i) || ISHEXDIGIT (at_ s i)
    then match RedHtoULL (skipn i s) with Some (v, r) => Some (v, (i + r)%nat) | None => None end
    else None
  else if ISDIGIT (at_ s i) then
    let t := ntoull_loop (skipn i s) 0 in
    let e := (i + digits (skipn i s))%nat in
    if neg then (if 9223372036854775807 <? t then None else Some (Z_u64 (- Z.of_N t), e)) else Some (t, e)
  else None.
Definition after_sign32 (neg : bool) (i : nat) (s : list N) : option (N * nat) :=
  if (at_ s i =? 48) && ((at_ s (i + 1) =? 120) || (at_ s (i + 1) =? 88)) then
    let i := (i + 2)%nat in
    if ISDIGIT (at_ s i) || ISHEXDIGIT (at_ s i)
    then match RedHtoUL (skipn i s) with Some (v, r) => Some (v, (i + r)%nat) | None => None end
    else None
  else if ISDIGIT (at_ s i) then
    let t := Z_u32 (RedAtoI (skipn i s)) in
    let e := (i + digits (skipn i s))%nat in
    if neg then (if 2147483647 <? t then None else Some (Z_u32 (- Z.of_N t), e)) else Some (t, e)
  else None.
Definition off (neg : bool) : nat := if neg then 1 else 0.
Definition sgn (neg : bool) (s : list N) : list N := if neg then 45 :: s else s.
Lemma at_sgn neg s i : at_ (sgn neg s) (off neg + i) = at_ s i. Proof. destruct neg; reflexivity. Qed.
Lemma at_sgn0 neg s : at_ (sgn neg s) (off neg) = at_ s 0. Proof. destruct neg; reflexivity. Qed.
Lemma skipn_sgn neg s i : skipn (off neg + i) (sgn neg s) = skipn i s. Proof. destruct neg; reflexivity. Qed.
Lemma skipn_sgn0 neg s : skipn (off neg) (sgn neg s) = s. Proof. destruct neg; reflexivity. Qed.
Lemma ntoull_split neg s : (at_ s 0 =? 45) = false -> RedNtoULL (sgn neg s) = after_sign64 neg (off neg) (sgn neg s).
Proof. intros H. unfold RedNtoULL. destruct neg; [reflexivity|]. cbn [sgn off]. rewrite H. reflexivity. Qed.
Lemma ntoul_split neg s : (at_ s 0 =? 45) = false -> RedNtoUL (sgn neg s) = after_sign32 neg (off neg) (sgn neg s).
Proof. intros H. unfold RedNtoUL. destruct neg; [reflexivity|]. cbn [sgn off]. rewrite H. reflexivity. Qed.
Lemma z64 v : v < 2 ^ 64 -> Z_u64 (- Z.of_N v) = (2 ^ 64 - v) mod 2 ^ 64.
Proof.
  intros L. unfold Z_u64. change (2 ^ 64) with 18446744073709551616 in *. destruct (N.eq_dec v 0) as [->|N0]; [reflexivity|].
  rewrite N.mod_small by lia. replace (- Z.of_N v)%Z with (Z.of_N (18446744073709551616 - v) + (-1) * 18446744073709551616)%Z by lia.
  rewrite Z_mod_plus_full, Z.mod_small by lia. apply N2Z.id.
Qed.
Lemma z32 v : v < 2 ^ 32 -> Z_u32 (- Z.of_N v) = (2 ^ 32 - v) mod 2 ^ 32.
Proof.
  intros L. unfold Z_u32. change (2 ^ 32) with 4294967296 in *. destruct (N.eq_dec v 0) as [->|N0]; [reflexivity|].
  rewrite N.mod_small by lia. replace (- Z.of_N v)%Z with (Z.of_N (4294967296 - v) + (-1) * 4294967296)%Z by lia.
  rewrite Z_mod_plus_full, Z.mod_small by lia. apply N2Z.id.
Qed.
Lemma head_ends b s : (forall d, ~ digit b (at_ s 0) d) -> ends b s.
Proof. intros H c d E. destruct s as [|x r]; [discriminate E|]. injection E as ->. apply (H d). Qed.
Lemma ends_head b s d : ends b s -> ~ digit b (at_ s 0) d.
Proof. intros E H. destruct s as [|x r]; [destruct H as (_ & H); cbv [at_ nth] in H; lia|]. apply (E x d eq_refl H). Qed.

(** RedNtoULL, decimal: the value if it fits; after a minus sign the two's complement if the magnitude fits in 63 bits. *)
Theorem C49_decimal64 : forall cs ds rest, numeral 10 cs ds -> ends 10 rest -> ~ (cs = [48] /\ begins_x rest) -> pos 10 ds < 2 ^ 64 ->
  RedNtoULL (cs ++ rest) = Some (pos 10 ds, length cs) /\
  RedNtoULL (45 :: cs ++ rest) = if pos 10 ds <? 2 ^ 63 then Some ((2 ^ 64 - pos 10 ds) mod 2 ^ 64, S (length cs)) else None.
Proof.
  intros cs ds rest NU E NX L.
  assert (G : forall neg, RedNtoULL (sgn neg (cs ++ rest)) =
    if neg then (if 9223372036854775807 <? pos 10 ds then None else Some (Z_u64 (- Z.of_N (pos 10 ds)), S (length cs))) else Some (pos 10 ds, length cs)).
  { intros neg. rewrite ntoull_split by (eapply num_no_sign; eauto). unfold after_sign64. rewrite at_sgn0, at_sgn, skipn_sgn0.
    rewrite (no_prefix cs ds rest) by auto. destruct (num_at 10 cs ds rest NU) as (d & D). destruct (dec_char _ _ D) as (-> & _).
    rewrite (digits_ok cs ds) by (auto; apply NU).
    assert (V : ntoull_loop (cs ++ rest) 0 = pos 10 ds).
    { change 0 with (u64 0). rewrite (ntoull_ok cs ds) by (auto; apply NU). rewrite <- pos_fold by discriminate. unfold u64. apply N.mod_small. exact L. }
    rewrite V. destruct neg; reflexivity. }
  split; [apply (G false)|]. rewrite (G true : RedNtoULL (45 :: cs ++ rest) = _). rewrite z64 by auto.
  change (2 ^ 63) with 9223372036854775808. destruct (N.ltb_spec 9223372036854775807 (pos 10 ds)), (N.ltb_spec (pos 10 ds) 9223372036854775808); auto; lia.
Qed.
(** RedNtoUL, decimal.  Above INT32_MAX the C code relies on signed wrap-around in RedAtoI. *)
Theorem C49_decimal32 : forall cs ds rest, numeral 10 cs ds -> ends 10 rest -> ~ (cs = [48] /\ begins_x rest) -> pos 10 ds < 2 ^ 32 ->
  RedNtoUL (cs ++ rest) = Some (pos 10 ds, length cs) /\
  RedNtoUL (45 :: cs ++ rest) = if pos 10 ds <? 2 ^ 31 then Some ((2 ^ 32 - pos 10 ds) mod 2 ^ 32, S (length cs)) else None.
Proof.
  intros cs ds rest NU E NX L.
  assert (G : forall neg, RedNtoUL (sgn neg (cs ++ rest)) =
    if neg then (if 2147483647 <? pos 10 ds then None else Some (Z_u32 (- Z.of_N (pos 10 ds)), S (length cs))) else Some (pos 10 ds, length cs)).
  { intros neg. rewrite ntoul_split by (eapply num_no_sign; eauto). unfold after_sign32. rewrite at_sgn0, at_sgn, skipn_sgn0.
    rewrite (no_prefix cs ds rest) by auto. destruct (num_at 10 cs ds rest NU) as (d & D). destruct (dec_char _ _ D) as (-> & _).
    rewrite (digits_ok cs ds) by (auto; apply NU).
    rewrite (atoi_pos cs ds) by auto. rewrite i32_u32. rewrite N.mod_small by exact L. destruct neg; reflexivity. }
  split; [apply (G false)|]. rewrite (G true : RedNtoUL (45 :: cs ++ rest) = _). rewrite z32 by auto.
  change (2 ^ 31) with 2147483648. destruct (N.ltb_spec 2147483647 (pos 10 ds)), (N.ltb_spec (pos 10 ds) 2147483648); auto; lia.
Qed.
(** Both, with the prefix 0x or 0X: what RedHtoULL / RedHtoUL give for what follows (a sign is dropped:
    C49_negative_hex_refuted). *)
Theorem C49_prefixed : forall neg x s, x = 120 \/ x = 88 ->
  RedNtoULL (sgn neg (48 :: x :: s)) = option_map (fun p => (fst p, off neg + 2 + snd p)%nat) (RedHtoULL s) /\
  RedNtoUL (sgn neg (48 :: x :: s)) = option_map (fun p => (fst p, off neg + 2 + snd p)%nat) (RedHtoUL s).
Proof.
  intros neg x s X.
  assert (P : (at_ (48 :: x :: s) 0 =? 48) && ((at_ (48 :: x :: s) 1 =? 120) || (at_ (48 :: x :: s) 1 =? 88)) = true) by (destruct X as [-> | ->]; reflexivity).
  assert (C : (ISDIGIT (at_ s 0) || ISHEXDIGIT (at_ s 0) = true) \/ RedHtoULL s = None).
  { destruct (ISDIGIT (at_ s 0) || ISHEXDIGIT (at_ s 0)) eqn:E; auto. right. apply hex_none. apply head_ends. intros d D.
    destruct (hex_char _ _ D) as (_ & _ & Y). congruence. }
  assert (A2 : at_ (48 :: x :: s) 2 = at_ s 0) by reflexivity.
  split; [rewrite ntoull_split by reflexivity; unfold after_sign64|rewrite ntoul_split by reflexivity; unfold after_sign32];
    rewrite at_sgn0, !at_sgn, P, A2, skipn_sgn; cbn [skipn].
  - destruct C as [-> | ->]; [destruct (RedHtoULL s) as [[v r]|]; reflexivity|]. destruct (ISDIGIT (at_ s 0) || ISHEXDIGIT (at_ s 0)); reflexivity.
  - unfold RedHtoUL. destruct C as [-> | ->]; [destruct (RedHtoULL s) as [[v r]|]; [destruct (v <? UINT32_MAX)|]; reflexivity|]. destruct (ISDIGIT (at_ s 0) || ISHEXDIGIT (at_ s 0)); reflexivity.
Qed.
(** Without a decimal digit after the optional sign, NULL. *)
Theorem C49_none : forall neg s, ends 10 s -> (neg = false -> hd_error s <> Some 45) ->
  RedNtoULL (sgn neg s) = None /\ RedNtoUL (sgn neg s) = None.
Proof.
  intros neg s E NS. assert (IS : ISDIGIT (at_ s 0) = false) by (apply dec_not; intros d; apply ends_head; auto).
  assert (Z : at_ s 0 =? 48 = false). { apply N.eqb_neq. intros Z. rewrite Z in IS. discriminate IS. }
  assert (A : forall b : bool, (at_ s 0 =? 48) && b = false) by (intros b; rewrite Z; reflexivity).
  destruct neg.
  - unfold RedNtoULL, RedNtoUL. change (at_ (sgn true s) 0 =? 45) with true. cbv iota.
    change (at_ (sgn true s) 1) with (at_ s 0). rewrite !A, !IS. auto.
  - assert (S0 : at_ s 0 =? 45 = false). { destruct s as [|c r]; [reflexivity|]. apply N.eqb_neq. intros Q. apply (NS eq_refl). cbn. f_equal. exact Q. }
    rewrite (ntoull_split false) by auto. rewrite (ntoul_split false) by auto. unfold after_sign64, after_sign32. cbn [sgn off]. rewrite !A, !IS. auto.
Qed.
(** RedSizeToUL: the number, then B, MB or KB in any case; KB is assumed otherwise.  The result is the exact size, or NULL
    exactly when it does not fit in 32 bits (or there is no number). *)
Theorem C49_size : forall num v rest,
  (forall s, RedNtoUL s = None -> RedSizeToUL s = None) /\
  (forall b, letter_b b -> RedNtoUL (num ++ b :: rest) = Some (v, length num) -> v < 2 ^ 32 ->
     RedSizeToUL (num ++ b :: rest) = Some (v, (length num + 1)%nat)) /\
  (forall m b, m = 77 \/ m = 109 -> letter_b b -> RedNtoUL (num ++ m :: b :: rest) = Some (v, length num) ->
     RedSizeToUL (num ++ m :: b :: rest) = if v * 2 ^ 20 <? 2 ^ 32 then Some (v * 2 ^ 20, (length num + 2)%nat) else None) /\
  (forall k b, k = 75 \/ k = 107 -> letter_b b -> RedNtoUL (num ++ k :: b :: rest) = Some (v, length num) ->
     RedSizeToUL (num ++ k :: b :: rest) = if v * 2 ^ 10 <? 2 ^ 32 then Some (v * 2 ^ 10, (length num + 2)%nat) else None) /\
  (~ letter_b (at_ rest 0) -> ~ ((In (at_ rest 0) [75; 107; 77; 109]) /\ letter_b (at_ rest 1)) -> RedNtoUL (num ++ rest) = Some (v, length num) ->
     RedSizeToUL (num ++ rest) = if v * 2 ^ 10 <? 2 ^ 32 then Some (v * 2 ^ 10, length num) else None).
Proof.
  intros num v rest.
  assert (LB : forall c, letter_b c -> (c =? 66) || (c =? 98) = true) by (intros c [-> | ->]; reflexivity).
  assert (K : forall r, (if UINT32_MAX / 1024 <? v then None else Some (u32 (v * 1024), r)) = if v * 2 ^ 10 <? 2 ^ 32 then Some (v * 2 ^ 10, r) else None :> option (N * nat)).
  { intros r. change (2 ^ 10) with 1024. change (2 ^ 32) with 4294967296. change (UINT32_MAX / 1024) with 4194303.
    destruct (N.ltb_spec 4194303 v), (N.ltb_spec (v * 1024) 4294967296); auto; try lia. unfold u32. rewrite N.mod_small by lia. reflexivity. }
  assert (A0 : forall y, at_ (num ++ y) (length num) = at_ y 0) by (intros y; pose proof (at_app num y 0) as H; rewrite Nat.add_0_r in H; exact H).
  split; [|split; [|split; [|split]]].
  - intros s H. unfold RedSizeToUL. rewrite H. reflexivity.
  - intros b B H L. unfold RedSizeToUL. rewrite H. rewrite A0. change (at_ (b :: rest) 0) with b. rewrite LB by auto. reflexivity.
  - intros m b M B H. unfold RedSizeToUL. rewrite H. rewrite A0, at_app. change (at_ (m :: b :: rest) 0) with m. change (at_ (m :: b :: rest) 1) with b.
    rewrite (LB b) by auto. change (2 ^ 20) with 1048576. change (2 ^ 32) with 4294967296. change (UINT32_MAX / 1048576) with 4095.
    destruct M as [-> | ->]; cbn; (destruct (N.ltb_spec 4095 v), (N.ltb_spec (v * 1048576) 4294967296); auto; try lia; unfold u32; rewrite N.mod_small by lia; reflexivity).
  - intros k b M B H. unfold RedSizeToUL. rewrite H. rewrite A0, at_app. change (at_ (k :: b :: rest) 0) with k. change (at_ (k :: b :: rest) 1) with b.
    rewrite (LB b) by auto. destruct M as [-> | ->]; apply K.
  - intros NB NX H. unfold RedSizeToUL. rewrite H. rewrite A0, at_app. set (c := at_ rest 0) in *. set (c1 := at_ rest 1) in *. clearbody c c1.
    assert (X1 : (c =? 66) || (c =? 98) = false). { apply orb_false_iff. split; apply N.eqb_neq; intros ->; apply NB; [left|right]; reflexivity. }
    rewrite X1. destruct ((c1 =? 66) || (c1 =? 98)) eqn:X2.
    + assert (L1 : letter_b c1). { apply orb_true_iff in X2. destruct X2 as [X2|X2]; apply N.eqb_eq in X2; [left|right]; exact X2. }
      destruct (N.eqb_spec c 77) as [->|]; [exfalso; apply NX; split; [cbn; tauto|auto]|]. destruct (N.eqb_spec c 109) as [->|]; [exfalso; apply NX; split; [cbn; tauto|auto]|].
      destruct (N.eqb_spec c 75) as [->|]; [exfalso; apply NX; split; [cbn; tauto|auto]|]. destruct (N.eqb_spec c 107) as [->|]; [exfalso; apply NX; split; [cbn; tauto|auto]|].
      cbn [orb andb]. apply K.
    + rewrite !andb_false_r. apply K.
Qed.

(** "FFFFFFFF" fits in 32 bits but is refused (the comparison is < UINT32_MAX). *)
Theorem C49_hex32_max_refuted :
  exists cs ds, numeral 16 cs ds /\ pos 16 ds < 2 ^ 32 /\ RedHtoUL cs = None.
Proof.
  exists (repeat 70 8), (repeat 15 8). split; [|vm_compute; repeat split].
  split; [|discriminate]. cbn [repeat].
  repeat (apply Forall2_cons; [split; [reflexivity|right; split; [discriminate|left; reflexivity]]|]). constructor.
Qed.
(** "If the number is negative [...] returned as the equivalent unsigned value": the sign of "-0x10" is dropped. *)
Theorem C49_negative_hex_refuted :
  RedNtoUL [45; 48; 120; 49; 48] = Some (16, 5%nat) /\ RedNtoULL [45; 48; 120; 49; 48] = Some (16, 5%nat).
Proof. vm_compute. split; reflexivity. Qed.

(** ** The hypotheses are met *)
Example num_4095 : numeral 16 [70; 102; 70] [15; 15; 15] /\ pos 16 [15; 15; 15] = 4095 /\ ends 16 [32].
Proof.
  split; [|split; [reflexivity|]].
  - split; [|discriminate]. repeat (apply Forall2_cons; [split; [reflexivity|right; split; [discriminate|first [left; reflexivity|right; reflexivity]]]|]). constructor.
  - intros c d H. injection H as <-. intros (L & H). lia.
Qed.
Example num_1539 : numeral 10 [49; 53; 51; 57] [1; 5; 3; 9] /\ pos 10 [1; 5; 3; 9] = 1539 /\ ends 10 [].
Proof.
  split; [|split; [reflexivity|]].
  - split; [|discriminate]. repeat (apply Forall2_cons; [split; [reflexivity|left; split; reflexivity]|]). constructor.
  - intros c d H. discriminate H.
Qed.
Example atoi_ex : RedAtoI [45; 49; 53; 51; 57; 32] = (-1539)%Z. Proof. reflexivity. Qed.
Example ntoull_ex : RedNtoULL [45; 49] = Some (18446744073709551615, 2%nat). Proof. vm_compute. reflexivity. Qed.
Example size_ex : RedSizeToUL [48; 120; 49; 48; 77; 98] = Some (16777216, 6%nat). Proof. vm_compute. reflexivity. Qed.
Example size_overflow : RedSizeToUL [52; 48; 57; 54; 77; 66] = None. Proof. vm_compute. reflexivity. Qed.
