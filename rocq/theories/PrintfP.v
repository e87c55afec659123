(** Lemmas on Printf.v: the output buffer, digits, parsing. *)
From Verif Require Import Base Atoi AtoiSpec AtoiP Math MathP Printf PrintfSpec.
Ltac Zify.zify_post_hook ::= idtac.

(** The buffer b (b0 at the start) holds what fits into len characters of out *)
Definition holds (b0 : buf) (len : N) (b : buf) (i : N) (out : list N) : Prop :=
  i = N.min len (N.of_nat (length out)) /\ (forall j, j < i -> b j = nth (N.to_nat j) out 0) /\ (forall j, len <= j -> b j = b0 j).
Lemma holds_put b0 len cs : forall b i out, holds b0 len b i out -> forall b' i', put b i len cs = (b', i') -> holds b0 len b' i' (out ++ cs).
Proof.
  induction cs as [|c r IH]; intros b i out (HI & HB & HE) b' i' P; cbn [put] in P.
  - injection P as <- <-. rewrite app_nil_r. split; auto.
  - destruct (N.ltb_spec i len) as [L|L].
    + assert (IO : i = N.of_nat (length out)) by lia.
      replace (out ++ c :: r) with ((out ++ [c]) ++ r) by (rewrite <- app_assoc; reflexivity).
      apply (IH (upd b i c) (i + 1)); auto. split; [rewrite app_length; cbn [length]; lia|]. unfold upd. split; intros j J.
      * destruct (N.eqb_spec j i) as [->|NE].
        -- rewrite app_nth2 by lia. replace (N.to_nat i - length out)%nat with O by lia. reflexivity.
        -- rewrite app_nth1 by lia. apply HB. lia.
      * destruct (N.eqb_spec j i); [lia|]. auto.
    + injection P as <- <-. split; [rewrite app_length; lia|]. split; auto. intros j J. rewrite app_nth1 by lia. auto.
Qed.
Lemma holds_nul b0 len b i out : holds b0 len b i out -> holds b0 len (nul b i len) i out.
Proof.
  intros (HI & HB & HE). unfold nul. destruct (N.ltb_spec i len); [|split; auto]. split; [auto|]. unfold upd. split; intros j J.
  - destruct (N.eqb_spec j i); [lia|]. auto.
  - destruct (N.eqb_spec j i); [lia|]. auto.
Qed.
Lemma holds_stop b0 len b i out : holds b0 len b i out -> len <= i -> forall o, holds b0 len b i (out ++ o).
Proof.
  intros (HI & HB & HE) L o. split; [rewrite app_length; lia|]. split; auto. intros j J. rewrite app_nth1 by lia. auto.
Qed.
Lemma holds_len b0 len b i out : holds b0 len b i out -> i <= len. Proof. intros (-> & _). lia. Qed.
Lemma holds_finish b0 len ds b i out fill fc : holds b0 len b i out -> forall b' i', FinishToA ds b i len fill fc = (b', i') ->
  holds b0 len b' i' (out ++ repeat fc (N.to_nat (fill - N.of_nat (length ds))) ++ rev ds).
Proof.
  intros H b' i' F. unfold FinishToA in F. set (n := N.of_nat (length ds)) in *.
  assert (X : exists b1 i1, (if n <? fill then put b i len (repeat fc (N.to_nat (fill - n))) else (b, i)) = (b1, i1) /\ holds b0 len b1 i1 (out ++ repeat fc (N.to_nat (fill - n)))).
  { destruct (N.ltb_spec n fill) as [L|L].
    - destruct (put b i len _) as [b1 i1] eqn:E. exists b1, i1. split; auto. eapply holds_put; eauto.
    - exists b, i. split; auto. replace (fill - n) with 0 by lia. cbn [N.to_nat repeat]. rewrite app_nil_r. auto. }
  destruct X as (b1 & i1 & E & H1). rewrite E in F. destruct (put b1 i1 len (rev ds)) as [b2 i2] eqn:E2. injection F as <- <-.
  apply holds_nul. rewrite app_assoc. eapply holds_put; eauto.
Qed.

(** The conversion of strings *)
Lemma put_len b len cs : forall i b' i', i <= len -> put b i len cs = (b', i') -> i' = N.min len (i + N.of_nat (length cs)).
Proof.
  revert b. induction cs as [|c r IH]; intros b i b' i' L P; cbn [put] in P.
  - injection P as <- <-. cbn [length]. lia.
  - destruct (N.ltb_spec i len) as [L2|L2].
    + rewrite (IH _ (i + 1) _ _ ltac:(lia) P). cbn [length]. lia.
    + injection P as <- <-. cbn [length]. lia.
Qed.
Definition strpad (lj : bool) (fill fc : N) (str : list N) : list N :=
  let n := N.to_nat (fill - N.of_nat (length str)) in if lj then str ++ repeat 32 n else repeat fc n ++ str.
Lemma holds_str b0 len b i out f s args b' i' args' : holds b0 len b i out -> f_type f = PStr -> convert f b i len (AStr s :: args) = Some (b', i', args') ->
  args' = args /\ holds b0 len b' i' (out ++ strpad (f_left f) (f_fill f) (f_char f) (match s with Some s => s | None => [110; 117; 108; 108] end)).
Proof.
  intros H T C. unfold convert in C. rewrite T in C. set (str := match s with Some s => s | None => _ end) in *. clearbody str.
  pose proof (holds_len _ _ _ _ _ H) as IL. unfold strpad. set (n := f_fill f - N.of_nat (length str)) in *.
  destruct (f_left f).
  - destruct (put b i len str) as [b2 i2] eqn:E2. injection C as C <-. split; auto. rewrite app_assoc.
    pose proof (holds_put _ _ _ _ _ _ H _ _ E2) as H2. pose proof (put_len _ _ _ _ _ _ IL E2) as L2.
    destruct (N.le_gt_cases len i2) as [G|G].
    + destruct (repeat 32 (N.to_nat (f_fill f - (i - i) - (i2 - i)))) as [|c r] eqn:E3.
      * cbn [put] in C. injection C as <- <-. apply holds_stop; auto.
      * cbn [put] in C. destruct (N.ltb_spec i2 len); [lia|]. injection C as <- <-. apply holds_stop; auto.
    + replace (f_fill f - (i - i) - (i2 - i)) with n in C by (unfold n; lia). eapply holds_put; eauto.
  - destruct (put b i len (repeat (f_char f) _)) as [b1 i1] eqn:E1.
    destruct (put b1 i1 len str) as [b2 i2] eqn:E2. injection C as C <-. split; auto. rewrite app_assoc.
    pose proof (holds_put _ _ _ _ _ _ H _ _ E1) as H1. pose proof (holds_put _ _ _ _ _ _ H1 _ _ E2) as H2.
    pose proof (put_len _ _ _ _ _ _ IL E1) as L1. rewrite repeat_length in L1.
    pose proof (put_len _ _ _ _ _ _ (holds_len _ _ _ _ _ H1) E2) as L2.
    destruct (N.le_gt_cases len i2) as [G|G].
    + destruct (repeat 32 (N.to_nat (f_fill f - (i1 - i) - (i2 - i1)))) as [|c r] eqn:E3; cbn [put] in C; [injection C as <- <-; auto|].
      destruct (N.ltb_spec i2 len); [lia|]. injection C as <- <-. auto.
    + replace (f_fill f - (i1 - i) - (i2 - i1)) with 0 in C by (subst n; lia). cbn [N.to_nat repeat put] in C. injection C as <- <-. auto.
Qed.

(** Whatever is converted, the buffer still holds a text, longer than before *)
Lemma convert_holds b0 len b i out f args b' i' args' : holds b0 len b i out -> i < len -> convert f b i len args = Some (b', i', args') ->
  exists cs, holds b0 len b' i' (out ++ cs).
Proof.
  intros H IL C. unfold convert in C. destruct (f_type f) eqn:T.
  - destruct args as [|[z|] r]; try discriminate. injection C as <- <- <-. exists [to_unsigned 8 z].
    apply (holds_put _ _ [to_unsigned 8 z] _ _ _ H). cbn [put]. destruct (N.ltb_spec i len); [reflexivity|lia].
  - destruct args as [|[z|s] r]; try discriminate. destruct (holds_str b0 len b i out f s r b' i' args' H T) as (_ & X); [unfold convert; rewrite T; exact C|]. eexists. exact X.
  - destruct args as [|[z|] r]; try discriminate. unfold LtoA in C. destruct (if w =? 64 then _ else _); [|discriminate].
    destruct (FinishToA _ _ _ _ _ _) as [b1 i1] eqn:F. injection C as <- <- <-. eexists. eapply holds_finish; eauto.
  - destruct args as [|[z|] r]; try discriminate. unfold ULtoA in C. destruct (if w =? 64 then _ else _); [|discriminate].
    destruct (FinishToA _ _ _ _ _ _) as [b1 i1] eqn:F. injection C as <- <- <-. eexists. eapply holds_finish; eauto.
  - destruct args as [|[z|] r]; try discriminate. unfold ULtoA in C. destruct (if w =? 64 then _ else _); [|discriminate].
    destruct (FinishToA _ _ _ _ _ _) as [b1 i1] eqn:F. injection C as <- <- <-. eexists. eapply holds_finish; eauto.
  - injection C as <- <- <-. exists []. rewrite app_nil_r. auto.
Qed.
Lemma vloop_holds b0 len fuel : forall b i s args out b' i', holds b0 len b i out -> vloop fuel b i len s args = Some (b', i') ->
  exists cs, holds b0 len b' i' (out ++ cs).
Proof.
  induction fuel as [|k IH]; intros b i s args out b' i' H V; cbn [vloop] in V; destruct ((at_ s 0 =? 0) || negb (i <? len)) eqn:G0; try discriminate;
    try (injection V as <- <-; exists []; rewrite app_nil_r; exact H).
  destruct (ParseFormatSpecifier s) as [[sl f]|].
  - destruct (match f_type f with PPct => _ | _ => _ end) as [sl' idx].
    destruct (put b i len (firstn idx s)) as [b1 i1] eqn:P. pose proof (holds_nul _ _ _ _ _ (holds_put _ _ _ _ _ _ H _ _ P)) as H1.
    destruct ((sl' =? 0)%nat || (i1 =? len)) eqn:G; [injection V as <- <-; eexists; exact H1|].
    destruct (if f_var f then _ else _) as [[f2 args2]|]; [|discriminate].
    destruct (convert f2 _ i1 len args2) as [[[b2 i2] a2]|] eqn:C; [|discriminate].
    apply orb_false_elim in G. destruct G as (_ & G). apply N.eqb_neq in G. pose proof (holds_len _ _ _ _ _ H1) as L1.
    destruct (convert_holds _ _ _ _ _ _ _ _ _ _ H1 ltac:(lia) C) as (cs & H2).
    destruct (IH _ _ _ _ _ _ _ H2 V) as (cs2 & H3). rewrite <- !app_assoc in H3. eexists. exact H3.
  - destruct (put b i len s) as [b1 i1] eqn:P. injection V as <- <-. eexists. apply holds_nul. eapply holds_put; eauto.
Qed.

(** Digits *)
Lemma dig_ok b d : b <= 16 -> d < b -> digit b (dig d) d /\ dig d < 97.
Proof.
  intros B D. unfold dig, digit. assert (D16 : d < 16) by lia. 
  destruct (N.lt_ge_cases d 10).
  - assert (E : nth (N.to_nat d) gacDigits 0 = 48 + d).
    { assert (X : d = 0 \/ d = 1 \/ d = 2 \/ d = 3 \/ d = 4 \/ d = 5 \/ d = 6 \/ d = 7 \/ d = 8 \/ d = 9) by lia. repeat destruct X as [->|X]; try reflexivity. subst. reflexivity. }
    rewrite E. split; [split; [auto|left; auto]|lia].
  - assert (E : nth (N.to_nat d) gacDigits 0 = 55 + d).
    { assert (X : d = 10 \/ d = 11 \/ d = 12 \/ d = 13 \/ d = 14 \/ d = 15) by lia. repeat destruct X as [->|X]; try reflexivity. subst. reflexivity. }
    rewrite E. split; [split; [auto|right; auto]|lia].
Qed.
Lemma pos_snoc b ds d : b <> 0 -> pos b (ds ++ [d]) = pos b ds * b + d.
Proof. intros B. rewrite !pos_fold by auto. rewrite fold_left_app. reflexivity. Qed.
Lemma digits32_ok b : 2 <= b -> b <= 16 -> forall size n, n < b ^ N.of_nat size -> (0 < size)%nat ->
  exists l, digits32 size b n = Some l /\ written b (rev l) n.
Proof.
  intros B1 B2. induction size as [|k IH]; intros n L S0; [lia|]. clear S0. cbn [digits32].
  assert (BN : b <> 0) by lia. pose proof (N.div_mod n b BN) as DM. pose proof (N.mod_lt n b BN) as ML.
  destruct (dig_ok b (n mod b) B2 ML) as (DG & D97).
  destruct (N.eqb_spec (n / b) 0) as [Z|Z].
  - eexists. split; [reflexivity|]. exists [n mod b]. rewrite Z in DM. cbn [rev app].
    assert (EN : n mod b = n) by lia. split; [split; [apply Forall2_cons; [exact DG|apply Forall2_nil]|discriminate]|].
    split; [cbn [pos length]; change (N.of_nat 0) with 0; rewrite N.pow_0_r; lia|]. split; [apply Forall_cons; [exact D97|apply Forall_nil]|].
    rewrite EN. split; [intros ->; reflexivity|]. intros NZ E. injection E as E. lia.
  - assert (KL : n / b < b ^ N.of_nat k).
    { apply N.div_lt_upper_bound; auto. rewrite Nat2N.inj_succ, N.pow_succ_r' in L. exact L. }
    assert (K0 : (0 < k)%nat) by (destruct k; [change (b ^ N.of_nat 0) with 1 in KL; apply N.lt_1_r in KL; congruence|apply Nat.lt_0_succ]).
    destruct (IH _ KL K0) as (l & E & ds & (NU & ND) & P & F & HZ & HN). rewrite E. eexists. split; [reflexivity|].
    exists (ds ++ [n mod b]). cbn [rev]. split; [split; [apply Forall2_app; [exact NU|apply Forall2_cons; [exact DG|apply Forall2_nil]]|destruct ds; discriminate]|].
    split; [rewrite pos_snoc, P by auto; lia|]. split; [apply Forall_app; split; [exact F|apply Forall_cons; [exact D97|apply Forall_nil]]|].
    split; [intros ->; exfalso; apply Z; apply N.div_0_l; auto|]. intros _. destruct ds as [|d r]; [congruence|]. cbn [app hd_error]. exact (HN Z).
Qed.
Lemma digits64_eq : forall size n, n < 2 ^ 64 -> digits64 size n = digits32 size 10 n.
Proof.
  induction size as [|k IH]; intros n L; auto. cbn [digits64 digits32]. rewrite divmod32_ok by (unfold T32, T64; try reflexivity; exact L).
  destruct (n / 10 =? 0); auto. rewrite IH; auto. apply N.le_lt_trans with n; auto. apply N.div_le_upper_bound; lia.
Qed.
Lemma hexdigits64_eq : forall size n, hexdigits64 size n = digits32 size 16 n.
Proof.
  induction size as [|k IH]; intros n; auto. cbn [hexdigits64 digits32]. rewrite N.shiftr_div_pow2. change 15 with (N.ones 4). rewrite N.land_ones. change (2 ^ 4) with 16.
  rewrite IH. reflexivity.
Qed.
