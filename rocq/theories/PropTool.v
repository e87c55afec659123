(** C53: volume arguments and answers of the host tools (tools/toolcmn.c). *)
From Verif Require Import Base ToolSpec Tool.
From Coq Require Import List Arith. Import ListNotations.
Ltac Zify.zify_post_hook ::= idtac.
Open Scope N_scope.

Lemma eqs_spec a b : eqs a b = true <-> a = b.
Proof. unfold eqs. destruct (list_eq_dec N.eq_dec a b); split; congruence. Qed.
Lemma space_spec c : isspace c = true <-> white c.
Proof. unfold isspace, white. rewrite Bool.orb_true_iff, Bool.andb_true_iff, N.eqb_eq, !N.leb_le. tauto. Qed.
Lemma digit_spec c : isdigit c = true <-> digit c.
Proof. unfold isdigit, digit. rewrite Bool.andb_true_iff, !N.leb_le. tauto. Qed.
Lemma skip_app ws s : Forall white ws -> skip_white (ws ++ s) = skip_white s.
Proof. induction 1 as [|c ws H F IH]; cbn [app skip_white]; auto. apply space_spec in H. rewrite H. auto. Qed.
Lemma skip_split s : exists ws, s = ws ++ skip_white s /\ Forall white ws.
Proof.
  induction s as [|c s (ws & E & F)]; cbn [skip_white]; [exists []; auto|]. destruct (isspace c) eqn:H.
  - exists (c :: ws). cbn [app]. split; [congruence|]. constructor; auto. now apply space_spec.
  - exists []. auto.
Qed.
Lemma number_ok ds : Forall digit ds -> forall acc, number acc ds = (acc * 10 ^ N.of_nat (length ds) + value ds, []).
Proof.
  induction 1 as [|c ds H F IH]; intros acc; cbn [number value length]; [f_equal; change (10 ^ N.of_nat 0) with 1; lia|].
  pose proof (proj2 (digit_spec c) H) as E. rewrite E, IH. f_equal. rewrite Nat2N.inj_succ, N.pow_succ_r'. ring.
Qed.
Lemma number_all s : forall acc m, number acc s = (m, []) -> Forall digit s.
Proof.
  induction s as [|c s IH]; intros acc m; cbn [number]; [constructor|]. destruct (isdigit c) eqn:H; [|discriminate].
  intros E. constructor; [now apply digit_spec|]. eapply IH; eauto.
Qed.
Lemma sign_not_white c : c = 43 \/ c = 45 \/ digit c -> isspace c = false.
Proof. intros H. destruct (isspace c) eqn:E; auto. apply space_spec in E. unfold white, digit in *. lia. Qed.

(** strtoul takes all of a string that is not empty exactly if it is a numeral *)
Lemma strtoul_ok W s n : s <> [] -> (strtoul W s = (n, [], false) <-> unsigned_numeral W s n).
Proof.
  intros NE. split.
  - unfold strtoul. destruct (skip_split s) as (ws & E & F). set (s1 := skip_white s) in *.
    assert (K : forall neg s2, match s2 with
        | [] => (0, s, false)
        | c :: _ => if isdigit c then let '(m, e) := number 0 s2 in if 2 ^ W <=? m then (2 ^ W - 1, e, true)
             else (if neg : bool then (2 ^ W - m) mod 2 ^ W else m, e, false) else (0, s, false) end = (n, [], false) ->
        Forall digit s2 /\ s2 <> [] /\ value s2 < 2 ^ W /\ n = if neg then (2 ^ W - value s2) mod 2 ^ W else value s2).
    { intros neg s2 K. destruct s2 as [|c s2]; [congruence|]. destruct (isdigit c); [|congruence].
      destruct (number 0 (c :: s2)) as [m e] eqn:Q. destruct (2 ^ W <=? m) eqn:L; [congruence|]. injection K as K1 K2. subst e.
      pose proof (number_all _ _ _ Q) as D. rewrite (number_ok _ D) in Q. injection Q as Q. rewrite N.mul_0_l, N.add_0_l in Q. apply N.leb_gt in L.
      split; auto. split; [discriminate|]. assert (V : value (c :: s2) = m) by exact Q. rewrite V. split; [lia|congruence]. }
    intros H. clearbody s1. destruct s1 as [|c r].
    + exfalso. congruence.
    + destruct (c =? 45) eqn:C.
      * destruct (K true r H) as (A & B & C1 & C2). apply N.eqb_eq in C. subst c. exists ws, [45], r. repeat split; auto.
      * destruct (c =? 43) eqn:C'.
        -- destruct (K false r H) as (A & B & C1 & C2). apply N.eqb_eq in C'. subst c. exists ws, [43], r. repeat split; auto.
        -- destruct (K false (c :: r) H) as (A & B & C1 & C2). exists ws, [], (c :: r). repeat split; auto.
  - intros (ws & sg & ds & -> & F & D & ND & V & S). unfold strtoul. destruct ds as [|d ds]; [congruence|].
    assert (Dd : digit d) by now inversion D. pose proof (proj2 (digit_spec d) Dd) as Dd'. pose proof (sign_not_white d (or_intror (or_intror Dd))) as W0.
    rewrite skip_app by auto.
    assert (Lt : (2 ^ W <=? value (d :: ds)) = false) by now apply N.leb_gt.
    destruct S as [([->| ->] & ->)|(-> & ->)].
    + change ([] ++ d :: ds) with (d :: ds). cbn [skip_white]. rewrite W0.
      destruct (d =? 45) eqn:E1; [apply N.eqb_eq in E1; unfold digit in Dd; lia|]. destruct (d =? 43) eqn:E2; [apply N.eqb_eq in E2; unfold digit in Dd; lia|].
      cbv iota beta. rewrite Dd', (number_ok _ D), N.mul_0_l, N.add_0_l, Lt. reflexivity.
    + cbn [app skip_white]. change (isspace 43) with false. cbv beta iota delta [N.eqb Pos.eqb].
      rewrite Dd', (number_ok _ D), N.mul_0_l, N.add_0_l, Lt. reflexivity.
    + cbn [app skip_white]. change (isspace 45) with false. cbv beta iota delta [N.eqb Pos.eqb].
      rewrite Dd', (number_ok _ D), N.mul_0_l, N.add_0_l, Lt. reflexivity.
Qed.
Lemma numeral_nonempty W s n : unsigned_numeral W s n -> s <> [].
Proof. intros (ws & sg & ds & -> & _ & _ & N & _) E. apply app_eq_nil in E as [_ E]. apply app_eq_nil in E as [_ E]. auto. Qed.
Lemma numeral_fun W s n m : unsigned_numeral W s n -> unsigned_numeral W s m -> n = m.
Proof. intros A B. pose proof (numeral_nonempty _ _ _ A) as N. apply strtoul_ok in A; auto. apply strtoul_ok in B; auto. congruence. Qed.

Lemma prefix_ok s ps : forall i, find_prefix i ps s = i + N.of_nat (length ps) /\ ~ In s ps \/
  exists v, has_prefix ps s v /\ find_prefix i ps s = i + N.of_nat v.
Proof.
  induction ps as [|p ps IH]; intros i; cbn [find_prefix].
  - left. split; [cbn [length]; lia|auto].
  - destruct (eqs p s) eqn:E.
    + apply eqs_spec in E. subst p. right. exists O. split; [|lia]. split; [reflexivity|]. intros j Hj. lia.
    + assert (NE : p <> s) by (intros Q; apply eqs_spec in Q; congruence).
      destruct (IH (i + 1)) as [(Q & NI)|(v & (Hv & Hj) & Q)].
      * left. rewrite Q. cbn [length]. split; [lia|]. intros [A|A]; auto.
      * right. exists (S v). split; [split; [exact Hv|]|rewrite Q; lia]. intros [|j] J; cbn [nth_error]; [congruence|]. apply Hj. lia.
Qed.

(** A volume argument stands for the first volume with this path prefix, else for the volume of this number.  (And the empty
    argument, unless it is a prefix, for volume 0: see C53_empty_refuted.)  Anything else gives the number of volumes, an error. *)
Theorem C53_volume_argument : forall W posix prefixes s, 8 < W -> (length prefixes <= 255)%nat ->
  (forall v, (v < length prefixes)%nat ->
    (RedFindVolumeNumber W posix prefixes s = N.of_nat v <->
     posix = true /\ has_prefix prefixes s v \/
     ~ (posix = true /\ In s prefixes) /\ (unsigned_numeral W s (N.of_nat v) \/ s = [] /\ v = O))) /\
  ((forall v, (v < length prefixes)%nat -> RedFindVolumeNumber W posix prefixes s <> N.of_nat v) ->
   RedFindVolumeNumber W posix prefixes s = N.of_nat (length prefixes)).
Proof.
  intros W posix ps s HW HL.
  assert (P : 512 <= 2 ^ W) by (change 512 with (2 ^ 9); apply N.pow_le_mono_r; lia).
  unfold RedFindVolumeNumber. set (count := N.of_nat (length ps)). assert (CB : count <= 255) by lia.
  set (B := let '(n, e, erange) := strtoul W s in
     if negb erange && negb (n =? 2 ^ W - 1) && match e with [] => true | _ :: _ => false end && (n <? count) then n mod 256 else count).
  assert (NB : forall v, (v < length ps)%nat -> (B = N.of_nat v <-> unsigned_numeral W s (N.of_nat v) \/ s = [] /\ v = O)).
  { intros v Hv. unfold B. destruct s as [|c0 s0].
    - cbn [strtoul skip_white]. destruct (strtoul W []) as [[n e] er] eqn:Q. unfold strtoul in Q. cbn in Q. injection Q as <- <- <-.
      assert (0 =? 2 ^ W - 1 = false) as -> by (apply N.eqb_neq; lia). assert (0 <? count = true) as -> by (apply N.ltb_lt; lia).
      cbn [negb andb]. change (0 mod 256) with 0. split; [intros E; right; split; auto; lia|]. intros [H|[_ ->]]; auto.
      exfalso. apply numeral_nonempty in H. auto.
    - set (s := c0 :: s0) in *. assert (NE : s <> []) by discriminate. clearbody s. split.
      + destruct (strtoul W s) as [[n e] er] eqn:Q. destruct er; [cbn [negb andb]; intros; lia|]. destruct e; [|rewrite Bool.andb_false_r; cbn [andb]; intros; lia].
        destruct (n <? count) eqn:L; [|rewrite Bool.andb_false_r; intros; lia]. apply N.ltb_lt in L.
        assert (n =? 2 ^ W - 1 = false) as -> by (apply N.eqb_neq; lia). cbn [negb andb]. rewrite N.mod_small by lia. intros ->. left. apply strtoul_ok; auto.
      + intros [H|[H _]]; [|congruence]. apply strtoul_ok in H; auto. rewrite H. cbn [negb].
        assert (N.of_nat v =? 2 ^ W - 1 = false) as -> by (apply N.eqb_neq; lia). assert (N.of_nat v <? count = true) as -> by (apply N.ltb_lt; lia).
        cbn [negb andb]. apply N.mod_small. lia. }
  assert (BB : B < count \/ B = count).
  { unfold B. destruct (strtoul W s) as [[n e] er]. destruct (_ && _) eqn:Q; [|auto]. apply Bool.andb_true_iff in Q as [_ Q]. apply N.ltb_lt in Q.
    rewrite N.mod_small by lia. auto. }
  replace (let '(n, e, erange) := strtoul W s in _) with (if posix then let bIndex := find_prefix 0 ps s in if bIndex <? count then bIndex else B else B)
    by (unfold B; destruct (strtoul W s) as [[n e] er]; reflexivity).
  clearbody B. cbv zeta. destruct posix.
  - destruct (prefix_ok s ps 0) as [(Q & NI)|(v0 & (H0 & Hj) & Q)]; rewrite Q, N.add_0_l.
    + assert (N.of_nat (length ps) <? count = false) as -> by (apply N.ltb_ge; lia). split.
      * intros v Hv. rewrite NB by auto. split; [intros K; right; split; auto; intros [_ X]; auto|]. intros [(_ & X & _)|[_ K]]; auto.
        exfalso. apply NI. eapply nth_error_In; eauto.
      * intros K. destruct BB; auto. exfalso. apply (K (N.to_nat B)); lia.
    + assert (V : (v0 < length ps)%nat) by (apply nth_error_Some; congruence).
      assert (N.of_nat v0 <? count = true) as -> by (apply N.ltb_lt; lia). split.
      * intros v Hv. split.
        -- intros E. assert (v = v0) by lia. subst v. left. split; auto. split; auto.
        -- intros [(_ & X & Y)|[X _]].
           ++ destruct (Nat.lt_trichotomy v v0) as [L|[->|L]]; auto; exfalso; [apply (Hj v); auto|apply (Y v0); auto].
           ++ exfalso. apply X. split; auto. eapply nth_error_In; eauto.
      * intros K. exfalso. apply (K v0); auto.
  - split.
    + intros v Hv. rewrite NB by auto. split; [intros K; right; split; auto; intros [? _]; discriminate|]. intros [(? & _)|[_ K]]; [discriminate|auto].
    + intros K. destruct BB; auto. exfalso. apply (K (N.to_nat B)); lia.
Qed.

(** "Returns REDCONF_VOLUME_COUNT unless the string is a volume number or a path prefix" is false: the empty string is volume 0. *)
Theorem C53_empty_refuted : exists W posix prefixes s v, 8 < W /\ (v < length prefixes)%nat /\
  RedFindVolumeNumber W posix prefixes s = N.of_nat v /\ ~ In s prefixes /\ (forall n, ~ unsigned_numeral W s n).
Proof.
  exists 64, true, [[47]; [50]], [], O. split; [lia|]. split; [cbn; lia|]. split; [reflexivity|]. split.
  - intros [H|[H|[]]]; discriminate.
  - intros n H. apply numeral_nonempty in H. auto.
Qed.
(** Volumes "/", "2" and "0": "1" is volume 1, "2" the one with this prefix, " +2" volume 2 by number, "3" none *)
Example C53_example : map (RedFindVolumeNumber 64 true [[47]; [50]; [48]]) [[47]; [49]; [50]; [32; 43; 50]; [51]; [48]] = [0; 1; 1; 2; 3; 2] /\
  unsigned_numeral 64 [32; 43; 50] 2.
Proof.
  split; [vm_compute; reflexivity|]. exists [32], [43], [50]. split; auto. split; [repeat constructor|]. split; [constructor; [unfold digit; lia|constructor]|].
  split; [discriminate|]. split; [reflexivity|]. left. split; auto.
Qed.

(** The questions *)
Definition burnt (c : N) (l rest : list N) : forall k, (length l < k)%nat -> ~ In 10 (c :: l) -> burn (S k) (Some c) (l ++ 10 :: rest) = Some rest.
Proof.
  revert c. induction l as [|d l IH]; intros c k Hk NI.
  - cbn [burn]. assert (c =? 10 = false) as -> by (apply N.eqb_neq; intros ->; apply NI; left; auto). cbn [app getchar].
    destruct k; [cbn [length] in Hk; lia|]. reflexivity.
  - change (burn (S k) (Some c) ((d :: l) ++ 10 :: rest)) with (if c =? 10 then Some ((d :: l) ++ 10 :: rest) else burn k (Some d) (l ++ 10 :: rest)).
    assert (c =? 10 = false) as -> by (apply N.eqb_neq; intros ->; apply NI; left; auto).
    cbn [length] in Hk. destruct k as [|k]; [lia|]. apply IH; [lia|]. intros X. apply NI. right. exact X.
Qed.
Lemma burn_line k : forall c inp rest, burn k c inp = Some rest ->
  (c = Some 10 /\ rest = inp) \/ (exists l, ~ In 10 l /\ inp = l ++ 10 :: rest /\ c <> Some 10 /\ (c = None -> inp = [])) \/ (c = None /\ inp <> []).
Proof.
  induction k as [|k IH]; intros c inp rest; cbn [burn]; [discriminate|].
  destruct c as [c|].
  - destruct (c =? 10) eqn:E.
    + apply N.eqb_eq in E. subst c. intros H. injection H as <-. auto.
    + apply N.eqb_neq in E. destruct inp as [|d r]; cbn [getchar].
      * intros H. apply IH in H as [[H _]|[(l & _ & H & _)|[_ H]]]; [discriminate| |congruence]. destruct l; discriminate.
      * intros H. right. left. apply IH in H as [[H ->]|[(l & NI & -> & NE & _)|[H _]]]; [|  |discriminate].
        -- injection H as ->. exists []. split; auto. split; auto. split; [congruence|discriminate].
        -- exists (d :: l). split; [intros [X|X]; [congruence|auto]|]. split; auto. split; [congruence|discriminate].
  - destruct inp as [|d r]; [|intros; right; right; split; [auto|discriminate]]. cbn [getchar]. intros H. apply IH in H as [[H _]|[(l & _ & H & _)|[_ H]]]; [discriminate| |congruence].
    destruct l; discriminate.
Qed.
Lemma burn_eof k : burn k None [] = None.
Proof. induction k; cbn [burn getchar]; auto. Qed.
Definition isyn (a : N) : bool := (a =? 121) || (a =? 89) || (a =? 110) || (a =? 78).
Lemma yn_spec a : isyn a = true <-> yes a \/ no a.
Proof. unfold isyn, yes, no. rewrite !Bool.orb_true_iff, !N.eqb_eq. tauto. Qed.
Lemma y_spec a : (a =? 121) || (a =? 89) = true <-> yes a.
Proof. unfold yes. rewrite !Bool.orb_true_iff, !N.eqb_eq. tauto. Qed.

Lemma confirm_answers fuel : forall inp b, RedConfirmOperation fuel inp = Some b -> answers inp b.
Proof.
  induction fuel as [|k IH]; intros inp b; [discriminate|].
  destruct inp as [|a r].
  - cbn [RedConfirmOperation getchar]. rewrite burn_eof. discriminate.
  - change (RedConfirmOperation (S k) (a :: r)) with (match burn (S k) (Some a) r with None => None | Some r =>
      if isyn a then Some ((a =? 121) || (a =? 89)) else RedConfirmOperation k r end).
    destruct (burn (S k) (Some a) r) as [r'|] eqn:Q; [|discriminate]. apply burn_line in Q as [[Q ->]|[(l & NI & -> & NE & _)|[Q _]]]; [| |discriminate].
    + injection Q as ->. change (isyn 10) with false. cbv iota. intros H. apply IH in H as (ls & c & l & rest & -> & F & NI & Y).
      exists ([] :: ls), c, l, rest. split; [reflexivity|]. split; [|auto]. constructor; auto. split; [auto|discriminate].
    + assert (NA : a <> 10) by congruence. destruct (isyn a) eqn:Y.
      * intros H. injection H as <-. exists [], a, l, r'. split; [reflexivity|]. split; [constructor|]. split; auto.
        apply yn_spec in Y. destruct ((a =? 121) || (a =? 89)) eqn:Z; [left; split; auto; now apply y_spec|].
        destruct Y as [Y|Y]; [apply y_spec in Y; congruence|auto].
      * intros H. apply IH in H as (ls & c & l' & rest & -> & F & NI' & Y').
        exists ((a :: l) :: ls), c, l', rest. split; [cbn [map concat app]; rewrite <- !app_assoc; reflexivity|]. split; [|auto]. constructor; auto.
        split; [intros [X|X]; auto|]. cbn [hd_error]. intros c' E. injection E as <-.
        split; intros X; assert (isyn a = true) by (apply yn_spec; auto); congruence.
Qed.
Lemma answers_confirm ls c l rest : Forall refused ls -> ~ In 10 l -> yes c \/ no c ->
  let inp := concat (map (fun l => l ++ [10]) ls) ++ (c :: l) ++ [10] ++ rest in
  forall fuel, (length inp < fuel)%nat -> RedConfirmOperation fuel inp = Some ((c =? 121) || (c =? 89)).
Proof.
  intros F NI Y. pose proof (proj2 (yn_spec c) Y) as YN. assert (NC : c <> 10) by (unfold yes, no in Y; lia).
  induction F as [|x ls (NX & HX) F IH]; cbv zeta in *; intros fuel Hf.
  - cbn [map concat app] in *. destruct fuel as [|k]; [lia|]. cbn [length] in Hf. rewrite app_length in Hf.
    change (RedConfirmOperation (S k) (c :: l ++ 10 :: rest)) with (match burn (S k) (Some c) (l ++ 10 :: rest) with None => None | Some r =>
      if isyn c then Some ((c =? 121) || (c =? 89)) else RedConfirmOperation k r end).
    rewrite burnt; [rewrite YN; reflexivity|lia|]. intros [X|X]; auto.
  - cbn [map concat] in *. rewrite <- !app_assoc in *. set (tl := concat (map (fun l => l ++ [10]) ls) ++ (c :: l) ++ [10] ++ rest) in *. clearbody tl.
    destruct fuel as [|k]; [lia|]. rewrite !app_length in Hf. cbn [length] in Hf. destruct x as [|a x].
    + cbn [app]. change (RedConfirmOperation (S k) (10 :: tl)) with (RedConfirmOperation k tl). apply IH. cbn [length] in Hf. lia.
    + cbn [app length] in *. change (RedConfirmOperation (S k) (a :: x ++ 10 :: tl)) with (match burn (S k) (Some a) (x ++ 10 :: tl) with None => None | Some r =>
      if isyn a then Some ((a =? 121) || (a =? 89)) else RedConfirmOperation k r end).
      rewrite burnt; [|lia|exact NX].
      assert (isyn a = false) as ->. { destruct (isyn a) eqn:Z; auto. apply yn_spec in Z. destruct (HX a eq_refl). tauto. }
      apply IH. lia.
Qed.
(** A question returns exactly when a line beginning with y, Y, n or N has been typed completely, and the first such line decides *)
Theorem C53_confirm : forall typed b, (exists fuel, RedConfirmOperation fuel typed = Some b) <-> answers typed b.
Proof.
  intros typed b. split; [intros [fuel H]; eapply confirm_answers; eauto|].
  intros (ls & c & l & rest & -> & F & NI & Y). eexists. rewrite (answers_confirm ls c l rest F NI ltac:(tauto) _ (Nat.lt_succ_diag_r _)). f_equal.
  destruct Y as [[Y ->]|[Y ->]]; [now apply y_spec|]. destruct ((c =? 121) || (c =? 89)) eqn:Z; auto. apply y_spec in Z. unfold yes, no in *. lia.
Qed.
(** So a script that ends without such a line, for example in "y" without end of line, hangs the tool *)
Theorem C53_eof_refuted : exists typed, (exists c, yes c /\ In c typed) /\ forall fuel, RedConfirmOperation fuel typed = None.
Proof.
  exists [121]. split; [exists 121; split; [left; auto|left; auto]|]. intros fuel. destruct (RedConfirmOperation fuel [121]) as [b|] eqn:E; auto.
  apply confirm_answers in E as (ls & c & l & rest & E & _). exfalso. apply (f_equal (@length N)) in E. rewrite !app_length in E. cbn [length] in E. lia.
Qed.
(** "what", "", "Not yet", then "y" *)
Example C53_confirm_example : answers ([119; 104; 97; 116; 10] ++ [10] ++ [78; 111; 116; 10] ++ [121; 10]) false.
Proof.
  exists [[119; 104; 97; 116]; []], 78, [111; 116], [121; 10]. split; [reflexivity|]. split.
  - apply Forall_cons; [|apply Forall_cons; [|apply Forall_nil]].
    + split; [cbn; intuition discriminate|]. cbn. intros c E. injection E as <-. unfold yes, no. lia.
    + split; [cbn; auto|]. cbn. intros c E. discriminate E.
  - split; [cbn; intuition discriminate|]. right. split; [right; auto|auto].
Qed.
