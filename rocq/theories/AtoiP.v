(** Proofs about Atoi.v *)
From Verif Require Import Base Atoi AtoiSpec.
Ltac Zify.zify_post_hook ::= idtac.

Lemma pos_app b v ds : b <> 0 -> v * b ^ N.of_nat (length ds) + pos b ds = fold_left (fun a d => a * b + d) ds v.
Proof.
  intros B. revert v. induction ds as [|d r IH]; intros v; cbn [length pos fold_left].
  - change (N.of_nat 0) with 0. rewrite N.pow_0_r. lia.
  - rewrite <- IH, Nat2N.inj_succ, N.pow_succ_r'. lia.
Qed.
Lemma pos_fold b ds : b <> 0 -> pos b ds = fold_left (fun a d => a * b + d) ds 0.
Proof. intros B. rewrite <- (pos_app b 0) by auto. lia. Qed.
(** ** Digits *)
Lemma dec_char c d : digit 10 c d -> ISDIGIT c = true /\ c = 48 + d.
Proof. intros (D & [(A & ->)|(A & _)]); [|lia]. unfold ISDIGIT. lia. Qed.
Lemma dec_not c : (forall d, ~ digit 10 c d) -> ISDIGIT c = false.
Proof.
  intros H. destruct (ISDIGIT c) eqn:E; auto. exfalso. unfold ISDIGIT in E. apply andb_true_iff in E. destruct E as (A & B).
  apply N.leb_le in A, B. apply (H (c - 48)). split; [lia|]. left. split; lia.
Qed.
Definition hexval (c : N) : option N := if ISDIGIT c then Some (c - 48) else if ISHEXDIGITU c then Some (c - 55) else if ISHEXDIGITL c then Some (c - 87) else None.
Lemma hex_char c d : digit 16 c d -> hexval c = Some d /\ c <> 0 /\ ISDIGIT c || ISHEXDIGIT c = true.
Proof.
  intros (D & [(A & ->)|(A & [-> | ->])]); unfold hexval, ISHEXDIGIT, ISDIGIT, ISHEXDIGITU, ISHEXDIGITL.
  - destruct (N.leb_spec 48 (48 + d)); [|lia]. destruct (N.leb_spec (48 + d) 57); [|lia]. cbn. split; [f_equal|]; lia.
  - destruct (N.leb_spec 48 (55 + d)); [|lia]. destruct (N.leb_spec (55 + d) 57); [lia|]. destruct (N.leb_spec 65 (55 + d)); [|lia]. destruct (N.leb_spec (55 + d) 70); [|lia]. cbn.
    rewrite orb_true_r. split; [f_equal; lia|]. split; [lia|auto].
  - destruct (N.leb_spec 48 (87 + d)); [|lia]. destruct (N.leb_spec (87 + d) 57); [lia|]. destruct (N.leb_spec 65 (87 + d)); [|lia]. destruct (N.leb_spec (87 + d) 70); [lia|].
    destruct (N.leb_spec 97 (87 + d)); [|lia]. destruct (N.leb_spec (87 + d) 102); [|lia]. cbn. split; [f_equal; lia|]. split; [lia|auto].
Qed.
Lemma hex_not c : (forall d, ~ digit 16 c d) -> hexval c = None /\ ISDIGIT c || ISHEXDIGIT c = false.
Proof.
  intros H. unfold hexval, ISHEXDIGIT. destruct (ISDIGIT c) eqn:E.
  { exfalso. unfold ISDIGIT in E. apply andb_true_iff in E. destruct E as (A & B). apply N.leb_le in A, B. apply (H (c - 48)). split; [lia|]. left. split; lia. }
  destruct (ISHEXDIGITU c) eqn:E2.
  { exfalso. unfold ISHEXDIGITU in E2. apply andb_true_iff in E2. destruct E2 as (A & B). apply N.leb_le in A, B. apply (H (c - 55)). split; [lia|]. right. split; [lia|]. left. lia. }
  destruct (ISHEXDIGITL c) eqn:E3; auto.
  exfalso. unfold ISHEXDIGITL in E3. apply andb_true_iff in E3. destruct E3 as (A & B). apply N.leb_le in A, B. apply (H (c - 87)). split; [lia|]. right. split; [lia|]. right. lia.
Qed.
(** ** Modular arithmetic *)
Lemma u64_step v b d : u64 (u64 (u64 v * b) + d) = u64 (v * b + d).
Proof. unfold u64. rewrite N.add_mod_idemp_l by discriminate. rewrite <- (N.add_mod_idemp_l (v mod _ * b)) by discriminate. rewrite N.mul_mod_idemp_l by discriminate. apply N.add_mod_idemp_l. discriminate. Qed.
Lemma i32_add x k : i32 (x + k * 4294967296) = i32 x.
Proof. unfold i32. replace (x + k * 4294967296 + 2147483648)%Z with (x + 2147483648 + k * 4294967296)%Z by lia. rewrite Z_mod_plus_full. reflexivity. Qed.
Lemma i32_eq x : exists k, i32 x = (x + k * 4294967296)%Z.
Proof. unfold i32. pose proof (Z.div_mod (x + 2147483648) 4294967296 ltac:(lia)) as H. exists (- ((x + 2147483648) / 4294967296))%Z. lia. Qed.
Lemma i32_i32 x : i32 (i32 x) = i32 x.
Proof. destruct (i32_eq x) as (k & E). rewrite E at 1. apply i32_add. Qed.
Lemma i32_id x : (-2147483648 <= x < 2147483648)%Z -> i32 x = x.
Proof. intros H. unfold i32. rewrite Z.mod_small by lia. lia. Qed.
Lemma i32_step v d : i32 (i32 (i32 v * 10) + d) = i32 (v * 10 + d).
Proof.
  destruct (i32_eq v) as (k & ->). destruct (i32_eq ((v + k * 4294967296) * 10)) as (j & ->).
  replace ((v + k * 4294967296) * 10 + j * 4294967296 + d)%Z with (v * 10 + d + (k * 10 + j) * 4294967296)%Z by lia. apply i32_add.
Qed.
(** ** The loops *)
Lemma hd_case (P : N -> Prop) rest : (forall c, hd_error rest = Some c -> P c) -> rest = [] \/ exists c r, rest = c :: r /\ P c.
Proof. intros H. destruct rest as [|c r]; auto. right. exists c, r. split; auto. Qed.
Lemma atoi_loop_ok cs ds rest : Forall2 (digit 10) cs ds -> ends 10 rest -> forall v,
  atoi_loop (cs ++ rest) (i32 (Z.of_N v)) = i32 (Z.of_N (fold_left (fun a d => a * 10 + d) ds v)).
Proof.
  intros F E. induction F as [|c d cs ds D F IH]; intros v; cbn [app atoi_loop fold_left].
  - destruct rest as [|c r]; cbn [atoi_loop]; auto. rewrite dec_not by (intros d; apply (E c d); reflexivity). reflexivity.
  - destruct (dec_char c d D) as (-> & ->). rewrite i32_step. rewrite <- IH. f_equal. f_equal. lia.
Qed.
Lemma digits_ok cs ds rest : Forall2 (digit 10) cs ds -> ends 10 rest -> digits (cs ++ rest) = length cs.
Proof.
  intros F E. induction F as [|c d cs ds D F IH]; cbn [app digits length].
  - destruct rest as [|c r]; cbn [digits]; auto. rewrite dec_not by (intros d; apply (E c d); reflexivity). reflexivity.
  - destruct (dec_char c d D) as (-> & _). rewrite IH. reflexivity.
Qed.
Lemma ntoull_ok cs ds rest : Forall2 (digit 10) cs ds -> ends 10 rest -> forall v,
  ntoull_loop (cs ++ rest) (u64 v) = u64 (fold_left (fun a d => a * 10 + d) ds v).
Proof.
  intros F E. induction F as [|c d cs ds D F IH]; intros v; cbn [app ntoull_loop fold_left].
  - destruct rest as [|c r]; cbn [ntoull_loop]; auto. rewrite dec_not by (intros d; apply (E c d); reflexivity). reflexivity.
  - destruct (dec_char c d D) as (-> & ->). rewrite u64_step. rewrite <- IH. f_equal. f_equal. lia.
Qed.
Lemma htoull_ok cs ds rest : Forall2 (digit 16) cs ds -> ends 16 rest -> forall v i ret,
  htoull_loop (cs ++ rest) (u64 v) i ret = (u64 (fold_left (fun a d => a * 16 + d) ds v), match cs with [] => ret | _ => Some (i + length cs)%nat end).
Proof.
  intros F E. induction F as [|c d cs ds D F IH]; intros v i ret; cbn [app htoull_loop fold_left].
  - destruct rest as [|c r]; cbn [htoull_loop]; auto. fold (hexval c). destruct (hex_not c (fun d => E c d eq_refl)) as (-> & _).
    destruct (c =? 0); auto.
  - destruct (hex_char c d D) as (X & Y & _). destruct (N.eqb_spec c 0); [lia|]. fold (hexval c). rewrite X. rewrite N.shiftl_mul_pow2. change (2 ^ 4) with 16. rewrite u64_step.
    rewrite IH. f_equal. destruct cs; cbn [length]; f_equal; lia.
Qed.
Lemma hex_loop cs ds rest : numeral 16 cs ds -> ends 16 rest -> RedHtoULL (cs ++ rest) = Some (u64 (pos 16 ds), length cs).
Proof.
  intros (F & NE) E. unfold RedHtoULL. change 0 with (u64 0) at 1. rewrite (htoull_ok cs ds) by auto. rewrite <- pos_fold by discriminate.
  destruct F; [congruence|]. cbn [length Nat.add]. reflexivity.
Qed.
Lemma hex_none s : ends 16 s -> RedHtoULL s = None.
Proof.
  intros E. unfold RedHtoULL. pose proof (htoull_ok [] [] s (Forall2_nil _) E 0 0%nat None) as H. cbn [app] in H. change (u64 0) with 0 in H. rewrite H. reflexivity.
Qed.
Lemma atoi_value cs ds rest : Forall2 (digit 10) cs ds -> ends 10 rest -> atoi_loop (cs ++ rest) 0 = i32 (Z.of_N (pos 10 ds)).
Proof. intros F E. rewrite pos_fold by discriminate. rewrite <- (atoi_loop_ok cs ds rest F E 0). reflexivity. Qed.
Lemma num_head b cs ds rest : numeral b cs ds -> exists c d cs' ds', cs = c :: cs' /\ ds = d :: ds' /\ digit b c d /\ Forall2 (digit b) cs' ds' /\ cs ++ rest = c :: cs' ++ rest.
Proof. intros (F & NE). destruct F as [|c d cs ds D F]; [congruence|]. exists c, d, cs, ds. auto. Qed.
Lemma atoi_pos cs ds rest : numeral 10 cs ds -> ends 10 rest -> RedAtoI (cs ++ rest) = i32 (Z.of_N (pos 10 ds)).
Proof.
  intros NU E. destruct (num_head _ _ _ rest NU) as (c & d & cs' & ds' & -> & -> & D & _ & _). unfold RedAtoI.
  destruct (dec_char c d D) as (IS & CE). destruct D as (DL & _). cbn [app]. unfold at_. cbn [nth].
  destruct (N.eqb_spec c 43); [lia|]. destruct (N.eqb_spec c 45); [lia|]. cbn [skipn].
  pose proof (atoi_value (c :: cs') (d :: ds') rest (proj1 NU) E) as V. cbn [app] in V. rewrite V.
  rewrite Z.mul_1_r. apply i32_i32.
Qed.
Lemma i32_u32 v : Z_u32 (i32 (Z.of_N v)) = v mod 4294967296.
Proof.
  unfold Z_u32. destruct (i32_eq (Z.of_N v)) as (k & ->). rewrite Z_mod_plus_full. rewrite <- (N2Z.id (v mod 4294967296)). f_equal. rewrite N2Z.inj_mod. reflexivity.
Qed.
