(** Lemmas on Printf.v: numbers and formats. *)
From Verif Require Import Base Atoi AtoiSpec AtoiP Math MathP Printf PrintfSpec PrintfP.
Ltac Zify.zify_post_hook ::= idtac.

Lemma dig_of b c d : b <= 16 -> digit b c d -> c < 97 -> c = dig d.
Proof.
  intros B D C. destruct (dig_ok b d B (proj1 D)) as ((_ & E) & L). destruct D as (_ & D). lia.
Qed.
Lemma pos_zero b ds : b <> 0 -> pos b ds = 0 -> hd_error ds <> Some 0 -> ds = [].
Proof.
  intros B P H. destruct ds as [|d r]; auto. cbn [pos hd_error] in *. exfalso. apply N.eq_add_0 in P. destruct P as (P & _). apply N.eq_mul_0 in P.
  destruct P as [->|P]; [congruence|]. exact (N.pow_nonzero _ _ B P).
Qed.
Lemma written_digits b : 2 <= b -> b <= 16 -> forall size n l cs, digits32 size b n = Some l -> written b cs n -> rev l = cs.
Proof.
  intros B1 B2. assert (BN : b <> 0) by lia. induction size as [|k IH]; intros n l cs D (ds & (NU & ND) & P & F & HZ & HN); [discriminate|]. cbn [digits32] in D.
  destruct (exists_last ND) as (ds0 & d & E). subst ds.
  apply Forall2_app_inv_r in NU. destruct NU as (cs0 & cl & N0 & NL & ->). inversion NL as [|c y r yr Dc N2]; subst. inversion N2; subst. clear NL N2.
  apply Forall_app in F. destruct F as (F0 & FL). inversion FL; subst.
  rewrite pos_snoc in D, HZ, HN by auto. pose proof (proj1 Dc) as DL.
  assert (Q : (pos b ds0 * b + d) / b = pos b ds0). { rewrite N.div_add_l by auto. rewrite (N.div_small d b DL). lia. }
  assert (R : (pos b ds0 * b + d) mod b = d). { rewrite N.add_comm. rewrite N.mod_add by auto. apply N.mod_small; auto. }
  rewrite Q, R in D. rewrite <- (dig_of b c d B2 Dc) in D by auto.
  destruct (N.eqb_spec (pos b ds0) 0) as [Z|Z].
  - injection D as <-. assert (E0 : ds0 = []).
    { destruct (N.eq_dec d 0) as [->|DN].
      - rewrite Z in HZ. specialize (HZ eq_refl). destruct ds0 as [|x [|y r]]; auto; discriminate.
      - apply (pos_zero b); auto. specialize (HN ltac:(rewrite Z; exact DN)). destruct ds0 as [|x r]; [discriminate|]. exact HN. }
    subst ds0. inversion N0; subst. reflexivity.
  - destruct (digits32 k b (pos b ds0)) as [l0|] eqn:E0; [|discriminate]. injection D as <-. cbn [rev]. f_equal. apply (IH (pos b ds0)); auto.
    exists ds0. split; [split; [exact N0|intros ->; apply Z; reflexivity]|]. split; auto. split; auto. split; [intros X; contradiction|]. intros _.
    assert (NZ : pos b ds0 * b + d <> 0). { intros X. apply N.eq_add_0 in X. destruct X as (X & _). apply N.eq_mul_0 in X. destruct X; auto. }
    specialize (HN NZ). destruct ds0 as [|x r]; [discriminate|]. exact HN.
Qed.

Definition pty_of (k : conversion) : pty :=
  match k with Char => PChar | Str => PStr | Ptr => PHex 64 | Dec q => PSigned (bits q) | Uns q => PUnsigned (bits q) | Hex q => PHex (bits q) end.
Lemma u_id (w : N) z : (0 <= z < 2 ^ Z.of_N w)%Z -> to_unsigned w z = Z.to_N z.
Proof. intros H. unfold to_unsigned. rewrite Z.mod_small by exact H. reflexivity. Qed.
Lemma s_id q z : (- 2 ^ (Z.of_N (bits q) - 1) <= z < 2 ^ (Z.of_N (bits q) - 1))%Z -> to_signed (bits q) z = z.
Proof.
  intros H. unfold to_signed. cbv zeta. destruct q; cbn [bits] in *.
  - change (2 ^ (Z.of_N 16 - 1))%Z with 32768%Z in H. change (2 ^ Z.of_N 16)%Z with 65536%Z. change (65536 / 2)%Z with 32768%Z. rewrite Z.mod_small; lia.
  - change (2 ^ (Z.of_N 32 - 1))%Z with 2147483648%Z in H. change (2 ^ Z.of_N 32)%Z with 4294967296%Z. change (4294967296 / 2)%Z with 2147483648%Z. rewrite Z.mod_small; lia.
  - change (2 ^ (Z.of_N 64 - 1))%Z with 9223372036854775808%Z in H. change (2 ^ Z.of_N 64)%Z with 18446744073709551616%Z. change (18446744073709551616 / 2)%Z with 9223372036854775808%Z. rewrite Z.mod_small; lia.
  - change (2 ^ (Z.of_N 64 - 1))%Z with 9223372036854775808%Z in H. change (2 ^ Z.of_N 64)%Z with 18446744073709551616%Z. change (18446744073709551616 / 2)%Z with 9223372036854775808%Z. rewrite Z.mod_small; lia.
Qed.
Lemma u_lt q z : (0 <= z < 2 ^ Z.of_N (bits q))%Z -> Z.to_N z < 2 ^ bits q.
Proof.
  intros R. destruct q; cbn [bits] in *.
  - change (2 ^ Z.of_N 16)%Z with 65536%Z in R. change (2 ^ 16) with 65536. lia.
  - change (2 ^ Z.of_N 32)%Z with 4294967296%Z in R. change (2 ^ 32) with 4294967296. lia.
  - change (2 ^ Z.of_N 64)%Z with 18446744073709551616%Z in R. change (2 ^ 64) with 18446744073709551616. lia.
  - change (2 ^ Z.of_N 64)%Z with 18446744073709551616%Z in R. change (2 ^ 64) with 18446744073709551616. lia.
Qed.
(** The digit loops succeed: the arrays are large enough *)
Lemma ULtoA_ok q n (hex : bool) cs b i len fill fc : n < 2 ^ bits q -> written (if hex then 16 else 10) cs n ->
  ULtoA (bits q) n hex b i len fill fc = Some (FinishToA (rev cs) b i len fill fc).
Proof.
  intros L W. unfold ULtoA.
  assert (B : 2 <= (if hex then 16 else 10) <= 16) by (destruct hex; lia). destruct B as (B1 & B2).
  assert (G : exists s, (0 < s)%nat /\ (if bits q =? 64 then (if hex then hexdigits64 21 n else digits64 21 n) else digits32 11 (if hex then 16 else 10) n) = digits32 s (if hex then 16 else 10) n /\ n < (if hex then 16 else 10) ^ N.of_nat s).
  { destruct q; cbn [bits] in *; [exists 11%nat|exists 11%nat|exists 21%nat|exists 21%nat]; (split; [lia|]); change (16 =? 64) with false; change (32 =? 64) with false; change (64 =? 64) with true; cbv iota;
      (split; [destruct hex; rewrite ?hexdigits64_eq; try reflexivity; rewrite digits64_eq by exact L; reflexivity|apply N.lt_le_trans with (1 := L); destruct hex; vm_compute; discriminate]). }
  destruct G as (s & S0 & E & LS). rewrite E. destruct (digits32_ok _ B1 B2 s n LS S0) as (l & D & _). rewrite D.
  rewrite <- (written_digits _ B1 B2 s n l cs D W). rewrite rev_involutive. reflexivity.
Qed.
Lemma LtoA_ok q z cs b i len fill fc : (- 2 ^ (Z.of_N (bits q) - 1) <= z < 2 ^ (Z.of_N (bits q) - 1))%Z -> written 10 cs (Z.to_N (Z.abs z)) ->
  LtoA (bits q) z b i len fill fc = Some (FinishToA (if (z <? 0)%Z then rev cs ++ [45] else rev cs) b i len fill fc).
Proof.
  intros H W. unfold LtoA.
  assert (E : (if (z <? 0)%Z then if bits q =? 64 then Z_u64 (- z) else Z_u32 (- z) else Z.to_N z) = Z.to_N (Z.abs z)).
  { destruct (Z.ltb_spec z 0) as [L|L]; [|rewrite Z.abs_eq by lia; reflexivity]. rewrite Z.abs_neq by lia. unfold Z_u64, Z_u32.
    destruct q; cbn [bits] in *;
      [change (2 ^ (Z.of_N 16 - 1))%Z with 32768%Z in H; change (16 =? 64) with false
      |change (2 ^ (Z.of_N 32 - 1))%Z with 2147483648%Z in H; change (32 =? 64) with false
      |change (2 ^ (Z.of_N 64 - 1))%Z with 9223372036854775808%Z in H; change (64 =? 64) with true
      |change (2 ^ (Z.of_N 64 - 1))%Z with 9223372036854775808%Z in H; change (64 =? 64) with true]; cbv iota; rewrite Z.mod_small by lia; reflexivity. }
  rewrite E. set (n := Z.to_N (Z.abs z)) in *.
  assert (G : exists s, (0 < s)%nat /\ (if bits q =? 64 then digits64 20 n else digits32 11 10 n) = digits32 s 10 n /\ n < 10 ^ N.of_nat s).
  { destruct q; cbn [bits] in *;
      [change (2 ^ (Z.of_N 16 - 1))%Z with 32768%Z in H; change (16 =? 64) with false; exists 11%nat
      |change (2 ^ (Z.of_N 32 - 1))%Z with 2147483648%Z in H; change (32 =? 64) with false; exists 11%nat
      |change (2 ^ (Z.of_N 64 - 1))%Z with 9223372036854775808%Z in H; change (64 =? 64) with true; exists 20%nat
      |change (2 ^ (Z.of_N 64 - 1))%Z with 9223372036854775808%Z in H; change (64 =? 64) with true; exists 20%nat]; (split; [lia|]); cbv iota.
    - split; auto. change (10 ^ N.of_nat 11) with 100000000000. unfold n. lia.
    - split; auto. change (10 ^ N.of_nat 11) with 100000000000. unfold n. lia.
    - split; [apply digits64_eq; change (2 ^ 64) with 18446744073709551616; unfold n; lia|]. change (10 ^ N.of_nat 20) with 100000000000000000000. unfold n. lia.
    - split; [apply digits64_eq; change (2 ^ 64) with 18446744073709551616; unfold n; lia|]. change (10 ^ N.of_nat 20) with 100000000000000000000. unfold n. lia. }
  destruct G as (s & S0 & E2 & LS). rewrite E2. destruct (digits32_ok 10 ltac:(lia) ltac:(lia) s n LS S0) as (l & D & _). rewrite D.
  rewrite <- (written_digits 10 ltac:(lia) ltac:(lia) s n l cs D W). rewrite rev_involutive. reflexivity.
Qed.
Lemma rev_len {A} (l : list A) : N.of_nat (length (rev l)) = N.of_nat (length l). Proof. rewrite rev_length. reflexivity. Qed.
(** The arguments of the specification are those of the model *)
Definition arg_of (a : argument) : arg := match a with AnInt z => AInt z | AString s => AStr s end.
Lemma str_some f b i len s r : f_type f = PStr -> exists b' i', convert f b i len (AStr s :: r) = Some (b', i', r).
Proof.
  intros T. unfold convert. rewrite T. destruct (if f_left f then _ else _) as [b1 i1]. destruct (put b1 i1 len _) as [b2 i2].
  destruct (put b2 i2 len _) as [b3 i3]. eauto.
Qed.
Lemma convert_value b0 len b i out f k a t rest : holds b0 len b i out -> i < len -> f_type f = pty_of k -> value_text k a t ->
  forall fill, f_char f = match fill with Some c => c | None => 32 end ->
  exists b' i', convert f b i len (arg_of a :: rest) = Some (b', i', rest) /\ holds b0 len b' i' (out ++ padded k (f_left f) fill (f_fill f) t).
Proof.
  intros H IL T V fill FC.
  assert (FIN : forall cs w, exists b' i', FinishToA (rev cs) b i len w (f_char f) = (b', i') /\
     holds b0 len b' i' (out ++ repeat (match fill with Some c => c | None => 32 end) (N.to_nat (w - N.of_nat (length cs))) ++ cs)).
  { intros cs w. destruct (FinishToA (rev cs) b i len w (f_char f)) as [b' i'] eqn:E. exists b', i'. split; auto.
    pose proof (holds_finish _ _ _ _ _ _ _ _ H _ _ E) as X. rewrite rev_len, rev_involutive, FC in X. exact X. }
  destruct V as [z R|s| |z cs R W|q z cs R W|q z cs R W|q z cs R W|q z cs R W]; cbn [pty_of padded arg_of] in *; cbv zeta.
  - unfold convert. rewrite T. rewrite u_id by exact R. eexists _, _. split; [reflexivity|]. apply (holds_put _ _ [Z.to_N z] _ _ _ H). cbn [put].
    destruct (N.ltb_spec i len); [reflexivity|lia].
  - destruct (str_some f b i len (Some s) rest T) as (b' & i' & C). exists b', i'. split; auto.
    destruct (holds_str _ _ _ _ _ _ _ _ _ _ _ H T C) as (_ & X). unfold strpad in X. cbv zeta in X. rewrite FC in X. exact X.
  - destruct (str_some f b i len None rest T) as (b' & i' & C). exists b', i'. split; auto.
    destruct (holds_str _ _ _ _ _ _ _ _ _ _ _ H T C) as (_ & X). unfold strpad in X. cbv zeta in X. rewrite FC in X. exact X.
  - unfold convert. rewrite T. rewrite u_id by exact R. change 64 with (bits SL) at 1; rewrite (ULtoA_ok SL _ true cs) by (exact W || (apply u_lt; exact R)).
    destruct (FIN cs (f_fill f)) as (b' & i' & -> & X). exists b', i'. split; auto.
  - unfold convert. rewrite T. rewrite s_id by lia. rewrite (LtoA_ok q z cs) by (try lia; rewrite Z.abs_eq by lia; exact W).
    destruct (Z.ltb_spec z 0); [lia|]. destruct (FIN cs (f_fill f)) as (b' & i' & -> & X). exists b', i'. split; auto.
  - unfold convert. rewrite T. assert (P : (0 < 2 ^ (Z.of_N (bits q) - 1))%Z) by (apply Z.pow_pos_nonneg; destruct q; cbn [bits]; lia).
    rewrite s_id by lia. rewrite (LtoA_ok q z cs) by (try lia; rewrite Z.abs_neq by lia; exact W).
    destruct (Z.ltb_spec z 0); [|lia]. destruct (FIN (45 :: cs) (f_fill f)) as (b' & i' & E & X). cbn [rev] in E. rewrite E. exists b', i'. split; auto.
  - unfold convert. rewrite T. rewrite u_id by exact R. rewrite (ULtoA_ok q _ false cs) by (exact W || (apply u_lt; exact R)).
    destruct (FIN cs (f_fill f)) as (b' & i' & -> & X). exists b', i'. split; auto.
  - unfold convert. rewrite T. rewrite u_id by exact R. rewrite (ULtoA_ok q _ true cs) by (exact W || (apply u_lt; exact R)).
    destruct (FIN cs (f_fill f)) as (b' & i' & -> & X). exists b', i'. split; auto.
Qed.

(** Parsing: what the string is from some index on *)
Lemma at_skip s i u : skipn i s = u -> at_ s i = at_ u 0.
Proof. intros <-. unfold at_. rewrite <- (firstn_skipn i s) at 1. destruct (Nat.le_gt_cases i (length s)).
  - rewrite app_nth2; rewrite firstn_length, Nat.min_l by auto; [f_equal; lia|lia].
  - rewrite (skipn_all2 s) by lia. rewrite app_nil_r. rewrite nth_overflow; [reflexivity|]. rewrite firstn_length. lia.
Qed.
Lemma skip_skip {A} (s : list A) i a u : skipn i s = a ++ u -> skipn (i + length a) s = u.
Proof.
  revert i. induction s as [|x r IH]; intros i E.
  - rewrite skipn_nil in *. symmetry in E. apply app_eq_nil in E. destruct E as (_ & ->). reflexivity.
  - destruct i as [|i].
    + cbn [skipn] in E. cbn [Nat.add]. rewrite E. rewrite skipn_app. rewrite skipn_all, Nat.sub_diag. reflexivity.
    + cbn [skipn Nat.add] in *. apply IH. exact E.
Qed.
Definition plain (c : N) : Prop := c <> 0 /\ c <> 37.
Lemma parse_plain s t cs : forall k i, skipn i s = cs ++ t -> Forall plain cs -> parse_spec (length cs + k) s i = parse_spec k s (i + length cs).
Proof.
  induction cs as [|c r IH]; intros k i E F; cbn [length Nat.add].
  - f_equal. lia.
  - inversion F as [|? ? (P0 & P37) F2]; subst. cbn [parse_spec]. rewrite (at_skip _ _ _ E). cbn [app at_ nth]. unfold at_. cbn [nth].
    destruct (N.eqb_spec c 0); [contradiction|]. destruct (N.eqb_spec c 37); [contradiction|]. cbn [negb].
    rewrite IH; auto; [f_equal; lia|]. apply (skip_skip s i [c] (r ++ t)). exact E.
Qed.
Lemma parse_type s i k rest : skipn i s = letters k ++ rest -> ParseFormatType s i = Some (pty_of k, length (letters k)).
Proof.
  intros E. unfold ParseFormatType. cbv zeta. pose proof (at_skip _ _ _ E) as A0.
  destruct k as [| | |q|q|q]; [| | |destruct q|destruct q|destruct q]; cbn [letters modifier app] in *; unfold at_ in *; cbn [nth] in A0; rewrite A0; try reflexivity;
    pose proof (skip_skip s i [_] _ E) as E1; cbn [length] in E1; pose proof (at_skip _ _ _ E1) as A1; unfold at_ in A1; cbn [nth] in A1; rewrite A1; try reflexivity;
    pose proof (skip_skip s i [_; _] _ E) as E2; cbn [length] in E2; pose proof (at_skip _ _ _ E2) as A2; unfold at_ in A2; cbn [nth] in A2; rewrite A2; reflexivity.
Qed.
Definition letter_ok (c : N) : Prop := 97 <= c < 128.
Lemma letters_head k : exists c r, letters k = c :: r /\ letter_ok c.
Proof. unfold letter_ok. destruct k as [| | |q|q|q]; [| | |destruct q|destruct q|destruct q]; eexists _, _; split; try reflexivity; lia. Qed.
Definition width_value (w : width) : N := match w with WNum _ ds => pos 10 ds | _ => 0 end.
Definition is_star (w : width) : bool := match w with WStar => true | _ => false end.
Lemma parse_width s i w k rest : skipn i s = width_text w ++ letters k ++ rest ->
  match w with WNum cs ds => numeral 10 cs ds /\ pos 10 ds < 2 ^ 31 | _ => True end ->
  field_width s i = (is_star w, width_value w, (i + length (width_text w))%nat).
Proof.
  intros E OK. unfold field_width. destruct (letters_head k) as (c & r & LE & LB). unfold letter_ok in LB. pose proof (at_skip _ _ _ E) as A0.
  destruct w as [| |cs ds]; cbn [width_text app length is_star width_value] in *.
  - rewrite LE in A0. unfold at_ in *. cbn [nth app] in A0. rewrite A0. unfold ISDIGIT. destruct (N.eqb_spec c 42); [lia|].
    destruct (N.leb_spec c 57); [lia|]. rewrite andb_false_r. f_equal. lia.
  - rewrite A0. reflexivity.
  - destruct OK as (NU & L). rewrite E. assert (EN : ends 10 (letters k ++ rest)).
    { rewrite LE. intros c' d HE D. cbn [app hd_error] in HE. injection HE as <-. destruct D as (DL & D). lia. }
    rewrite A0. destruct (num_head _ _ _ (letters k ++ rest) NU) as (c1 & d1 & cs1 & ds1 & -> & -> & D1 & _ & _).
    destruct (dec_char _ _ D1) as (I & CE). unfold at_ at 1 2. cbn [app nth]. rewrite I. destruct (N.eqb_spec c1 42); [destruct D1; lia|].
    change (c1 :: cs1 ++ letters k ++ rest) with ((c1 :: cs1) ++ letters k ++ rest).
    rewrite (atoi_pos _ (d1 :: ds1)) by auto. rewrite (digits_ok _ (d1 :: ds1)) by (auto; apply NU). rewrite i32_u32. change (2 ^ 31) with 2147483648 in L.
    rewrite N.mod_small by lia. reflexivity.
Qed.
Lemma parse_conv s i l f w k rest : item_ok (Conv l f w k) -> skipn i s = item_text (Conv l f w k) ++ rest -> forall n,
  parse_spec (S n) s i = Some (length (item_text (Conv l f w k)), mkF (pty_of k) i (width_value w) (match f with Some c => c | None => 32 end) l (is_star w)).
Proof.
  intros (FO & WO) E n. cbn [parse_spec]. pose proof (at_skip _ _ _ E) as A0. cbn [item_text app] in *. unfold at_ in A0 at 2. cbn [nth] in A0. rewrite A0.
  change (37 =? 0) with false. change (37 =? 37) with true. cbn [negb]. cbv iota.
  pose proof (skip_skip s i [37] _ E) as E1. cbn [length] in E1. clear E A0. rewrite <- !app_assoc in E1.
  assert (WOK : match w with WNum cs ds => numeral 10 cs ds /\ pos 10 ds < 2 ^ 31 | _ => True end) by (destruct w; auto; tauto).
  (* the character the flags end with *)
  assert (HD : exists c r, width_text w ++ letters k ++ rest = c :: r /\ c <> 45 /\ (f = None -> c <> 48) /\ c <> 95).
  { destruct w as [| |cs ds]; cbn [width_text app].
    - destruct (letters_head k) as (c & r & -> & L). unfold letter_ok in L. exists c, (r ++ rest). split; [reflexivity|]. clear - L. split; [lia|]. split; [intros _; lia|lia].
    - eexists _, _. split; [reflexivity|]. repeat split; intros; discriminate.
    - destruct WO as (NU & _ & H0). destruct (num_head _ _ _ rest NU) as (c1 & d1 & cs1 & ds1 & -> & -> & D1 & _ & _). eexists _, _. split; [reflexivity|].
      destruct (dec_char _ _ D1) as (_ & CE). destruct D1 as (DL & _). split; [lia|]. split; [|lia]. intros FN X. apply (H0 FN). cbn [hd_error]. congruence. }
  destruct HD as (c & r & HE & H45 & H48 & H95).
  assert (M : flag_minus s (i + 1) = (l, (i + 1 + length (if l then [45%N] else []))%nat)).
  { unfold flag_minus. rewrite (at_skip _ _ _ E1). destruct l; cbn [app length].
    - unfold at_. cbn [nth]. reflexivity.
    - destruct f as [fc|]; cbn [app].
      + unfold at_. cbn [nth]. destruct (N.eqb_spec fc 45) as [->|]; [destruct FO as [?|[?|?]]; discriminate|]. f_equal. lia.
      + rewrite HE. unfold at_. cbn [nth]. destruct (N.eqb_spec c 45); [contradiction|]. f_equal. lia. }
  rewrite M. apply skip_skip in E1. set (i1 := (i + 1 + length (if l then [45%N] else []))%nat) in *.
  assert (FF : flag_fill s i1 = (match f with Some c => c | None => 32 end, (i1 + length (match f with Some c => [c] | None => [] end))%nat)).
  { unfold flag_fill. rewrite (at_skip s i1 _ E1). destruct f as [fc|]; cbn [app length].
    - unfold at_. cbn [nth]. destruct FO as [?|[X|X]]; try discriminate; injection X as ->; reflexivity.
    - rewrite HE. unfold at_. cbn [nth]. destruct (N.eqb_spec c 48) as [->|]; [exfalso; apply H48; auto|]. destruct (N.eqb_spec c 95); [contradiction|]. cbn [orb]. f_equal. lia. }
  rewrite FF. apply (skip_skip s i1) in E1. set (i2 := (i1 + length (match f with Some c => [c] | None => [] end))%nat) in *.
  rewrite (parse_width s i2 w k rest E1 WOK). apply (skip_skip s i2) in E1. rewrite (parse_type s (i2 + length (width_text w)) k rest E1). f_equal. f_equal.
  cbn [length]. rewrite !app_length. unfold i2, i1. lia.
Qed.
Lemma parse_pct s i rest : skipn i s = item_text Percent ++ rest -> forall n, exists fc, parse_spec (S n) s i = Some (2%nat, mkF PPct i 0 fc false false).
Proof.
  intros E n. exists 32. cbn [parse_spec]. cbn [item_text app] in E. rewrite (at_skip _ _ _ E). pose proof (skip_skip s i [37] _ E) as E1. cbn [length] in E1.
  unfold flag_minus, flag_fill, field_width. unfold at_ at 1 2. cbn [nth]. change (37 =? 0) with false. change (37 =? 37) with true. cbn [negb]. cbv iota.
  pose proof (at_skip _ _ _ E1) as A1. unfold at_ in A1 at 2. cbn [nth] in A1. rewrite A1. change (37 =? 45) with false. cbv iota. rewrite A1.
  change ((37 =? 48) || (37 =? 95)) with false. cbv iota. rewrite A1. change (37 =? 42) with false. change (ISDIGIT 37) with false. cbv iota.
  unfold ParseFormatType. rewrite A1. change (37 =? 37) with true. cbv iota. f_equal. f_equal. lia.
Qed.
