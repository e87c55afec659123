(** C51: formatted output (tests/util/printf.c). *)
From Verif Require Import Base Atoi AtoiSpec AtoiP Printf PrintfSpec PrintfP PrintfP2.
Ltac Zify.zify_post_hook ::= idtac.

(** For every format (well-formed or not), all arguments and every buffer: nothing is written outside of the buffer, and
    the result is -1, or else the length of the text before the terminating NUL in the buffer. *)
Theorem C51_printf_safe : forall b len s args b' r, len < 2 ^ 31 -> RedVSNPrintf b len s args = Some (b', r) ->
  (forall j, len <= j -> b' j = b j) /\
  (r = (-1)%Z \/ exists n, r = Z.of_N n /\ n < len /\ b' n = 0).
Proof.
  intros b len s args b' r L H. unfold RedVSNPrintf in H. destruct (vloop _ b 0 len s args) as [[b1 i1]|] eqn:V; [|discriminate].
  destruct (vloop_holds b len _ _ _ _ _ [] _ _ (conj (eq_sym (N.min_r _ _ (N.le_0_l len))) (conj (fun j J => False_ind _ (N.nlt_0_r _ J)) (fun j _ => eq_refl))) V) as (cs & HI & HB & HE).
  destruct (N.ltb_spec i1 len) as [L1|L1]; injection H as <- <-.
  - unfold upd. split.
    + intros j J. destruct (N.eqb_spec j i1); [lia|]. auto.
    + right. exists i1. change (2 ^ 31) with 2147483648 in L. rewrite i32_id by lia. rewrite N.eqb_refl. auto.
  - auto.
Qed.

Lemma parse_lits_only lits : Forall plain lits -> ParseFormatSpecifier lits = None.
Proof.
  intros F. unfold ParseFormatSpecifier. replace (S (length lits)) with (length lits + 1)%nat by lia. rewrite (parse_plain lits []) by (cbn [skipn]; rewrite ?app_nil_r; auto).
  cbn [parse_spec]. replace (at_ lits (0 + length lits)) with 0 by (unfold at_; rewrite nth_overflow by lia; reflexivity). reflexivity.
Qed.
Lemma head_ok lits c r : Forall plain lits -> c <> 0 -> at_ (lits ++ c :: r) 0 =? 0 = false.
Proof. intros F C. apply N.eqb_neq. destruct F as [|x l (P & _) F]; unfold at_; cbn [app nth]; auto. Qed.
Lemma firstn_len {A} (x y : list A) : firstn (length x) (x ++ y) = x.
Proof. rewrite firstn_app, firstn_all, Nat.sub_diag. cbn [firstn]. apply app_nil_r. Qed.
Lemma skipn_len {A} (x y : list A) : skipn (length x) (x ++ y) = y.
Proof. induction x; auto. Qed.
Lemma vloop_renders b0 len ts : Forall item_ok ts -> forall args o, renders ts args o -> forall lits, Forall plain lits ->
  forall fuel b i out, (length (lits ++ format_text ts) < fuel)%nat -> holds b0 len b i out ->
  exists b' i', vloop fuel b i len (lits ++ format_text ts) (map arg_of args) = Some (b', i') /\ holds b0 len b' i' (out ++ lits ++ o).
Proof.
  induction ts as [|t ts IH]; intros OK args o R lits PL fuel b i out FU H.
  - inversion R; subst. unfold format_text in *. cbn [map concat] in *. rewrite app_nil_r in *. destruct fuel as [|k]; [lia|]. cbn [vloop].
    destruct (at_ lits 0 =? 0) eqn:A0; cbn [orb].
    + exists b, i. split; auto. assert (lits = []).
      { destruct PL as [|c r (P & _) F]; auto. unfold at_ in A0. cbn [nth] in A0. apply N.eqb_eq in A0. contradiction. }
      subst lits. rewrite app_nil_r. auto.
    + destruct (N.ltb_spec i len) as [L|L]; cbn [negb].
      * rewrite parse_lits_only by auto. destruct (put b i len lits) as [b1 i1] eqn:P. eexists _, _. split; [reflexivity|]. apply holds_nul. eapply holds_put; eauto.
      * exists b, i. split; auto. apply holds_stop; auto.
  - inversion OK as [|? ? OT OR]; subst. assert (FT : format_text (t :: ts) = item_text t ++ format_text ts) by reflexivity. rewrite FT in *.
    destruct t as [c| |l f w k].
    + inversion R; subst. cbn [item_text] in *. rewrite app_assoc in *.
      destruct (IH OR _ _ ltac:(eassumption) (lits ++ [c]) ltac:(apply Forall_app; split; [exact PL|apply Forall_cons; [exact OT|apply Forall_nil]]) fuel b i out FU H) as (b' & i' & V & H').
      exists b', i'. split; auto. rewrite <- app_assoc in H'. exact H'.
    + inversion R as [| |? ? o2 R2|]; subst. destruct fuel as [|fl]; [lia|]. cbn [vloop].
      set (s := lits ++ item_text Percent ++ format_text ts) in *.
      replace (at_ s 0 =? 0) with false by (symmetry; unfold s; cbn [item_text app]; apply head_ok; [auto|discriminate]). cbn [orb].
      destruct (N.ltb_spec i len) as [L|L]; cbn [negb]; [|exists b, i; split; auto; apply holds_stop; auto].
      assert (PS : exists fc, ParseFormatSpecifier s = Some (2%nat, mkF PPct (length lits) 0 fc false false)).
      { unfold ParseFormatSpecifier. replace (S (length s)) with (length lits + S (2 + length (format_text ts)))%nat by (unfold s; rewrite !app_length; cbn [item_text length]; lia).
        rewrite (parse_plain s (item_text Percent ++ format_text ts)) by auto. apply (parse_pct s (length lits) (format_text ts)). apply skipn_len. }
      destruct PS as (fc & ->). cbn [f_type f_idx f_var Nat.sub]. 
      assert (SE : s = (lits ++ [37]) ++ [37] ++ format_text ts) by (unfold s; cbn [item_text]; rewrite <- app_assoc; reflexivity).
      assert (LE : S (length lits) = length (lits ++ [37])) by (rewrite app_length; cbn [length]; lia).
      replace (firstn (S (length lits)) s) with (lits ++ [37]) by (rewrite LE, SE, firstn_len; reflexivity).
      replace (skipn (S (length lits) + 1) s) with (format_text ts).
      2:{ symmetry. apply (skip_skip s (S (length lits)) [37]). rewrite LE, SE. apply skipn_len. }
      destruct (put b i len (lits ++ [37])) as [b1 i1] eqn:P. pose proof (holds_nul _ _ _ _ _ (holds_put _ _ _ _ _ _ H _ _ P)) as H1. cbn [Nat.eqb orb].
      replace (out ++ lits ++ 37 :: o2) with ((out ++ lits ++ [37]) ++ o2) by (rewrite <- !app_assoc; reflexivity).
      destruct (N.eqb_spec i1 len) as [E|E]; [eexists _, _; split; [reflexivity|]; apply holds_stop; [exact H1|lia]|].
      unfold convert. cbn [f_type].
      assert (FU2 : (length (format_text ts) < fl)%nat) by (rewrite SE in FU; rewrite !app_length in FU; cbn [length] in FU; lia).
      apply (IH OR _ _ R2 [] ltac:(apply Forall_nil) fl _ _ _ FU2 H1).
    + inversion R as [| | |l0 f0 w0 k0 ts0 args0 wv a rest t o2 TW VT R2]; subst. destruct fuel as [|fl]; [lia|]. cbn [vloop].
      set (s := lits ++ item_text (Conv l f w k) ++ format_text ts) in *.
      replace (at_ s 0 =? 0) with false by (symmetry; unfold s; cbn [item_text app]; apply head_ok; [auto|discriminate]). cbn [orb].
      destruct (N.ltb_spec i len) as [L|L]; cbn [negb]; [|exists b, i; split; auto; apply holds_stop; auto].
      assert (PS : ParseFormatSpecifier s = Some (length (item_text (Conv l f w k)), mkF (pty_of k) (length lits) (width_value w) (match f with Some c => c | None => 32 end) l (is_star w))).
      { unfold ParseFormatSpecifier. replace (S (length s)) with (length lits + S (length (item_text (Conv l f w k)) + length (format_text ts)))%nat by (unfold s; rewrite !app_length; lia).
        rewrite (parse_plain s (item_text (Conv l f w k) ++ format_text ts)) by auto. apply (parse_conv s (length lits) l f w k (format_text ts) OT). apply skipn_len. }
      rewrite PS. cbn [f_type f_idx f_var f_fill f_char f_left].
      assert (NP : forall A (x y : A), match pty_of k with PPct => x | _ => y end = y) by (intros; destruct k; reflexivity). rewrite NP. clear NP.
      assert (SK : skipn (length lits + length (item_text (Conv l f w k))) s = format_text ts) by (apply skip_skip; apply skipn_len). rewrite SK.
      replace (firstn (length lits) s) with lits by (unfold s; rewrite firstn_len; reflexivity).
      destruct (put b i len lits) as [b1 i1] eqn:P. pose proof (holds_nul _ _ _ _ _ (holds_put _ _ _ _ _ _ H _ _ P)) as H1.
      assert (LN : (1 <= length (item_text (Conv l f w k)))%nat) by (cbn [item_text app length]; lia).
      destruct (Nat.eqb_spec (length (item_text (Conv l f w k))) 0) as [|_]; [lia|]. cbn [orb].
      rewrite app_assoc. destruct (N.eqb_spec i1 len) as [E|E]; [eexists _, _; split; [reflexivity|]; apply holds_stop; [exact H1|lia]|].
      assert (FA : exists f2, (if is_star w
          then match map arg_of args with
               | AInt z :: r => Some (mkF (pty_of k) (length lits) (if (0 <=? to_signed 32 z)%Z then Z.to_N (to_signed 32 z) else 0) (match f with Some c => c | None => 32 end) l true, r)
               | _ => None end
          else Some (mkF (pty_of k) (length lits) (width_value w) (match f with Some c => c | None => 32 end) l (is_star w), map arg_of args)) = Some (f2, arg_of a :: map arg_of rest)
          /\ f_type f2 = pty_of k /\ f_fill f2 = wv /\ f_char f2 = (match f with Some c => c | None => 32 end) /\ f_left f2 = l).
      { inversion TW; subst; cbn [is_star width_value map].
        - eexists. split; [reflexivity|]. repeat split.
        - eexists. split; [reflexivity|]. repeat split.
        - cbn [arg_of]. change 32 with (bits SI) at 1 2. rewrite (s_id SI) by (cbn [bits]; change (2 ^ (Z.of_N 32 - 1))%Z with (2 ^ 31)%Z; assumption).
          eexists. split; [reflexivity|]. cbn [f_type f_fill f_char f_left]. repeat split. destruct (Z.leb_spec 0 z) as [|N0]; auto. destruct z; try reflexivity; lia. }
      destruct FA as (f2 & -> & T2 & F2 & C2 & L2).
      pose proof (holds_len _ _ _ _ _ H1) as L1.
      destruct (convert_value _ _ _ _ _ f2 k a t (map arg_of rest) H1 ltac:(lia) T2 VT f C2) as (b2 & i2 & -> & H2). rewrite L2, F2 in H2.
      assert (FU2 : (length (format_text ts) < fl)%nat) by (unfold s in FU; rewrite !app_length in FU; lia).
      rewrite app_assoc. rewrite (app_assoc out lits) in H2 || idtac.
      apply (IH OR _ _ R2 [] ltac:(apply Forall_nil) fl _ _ _ FU2 H2).
Qed.
(** A well-formed format produces the text it stands for, cut off at the end of the buffer; the result is the length of the
    text if there is room for it and the NUL, and -1 otherwise. *)
Theorem C51_printf : forall ts args out b len, Forall item_ok ts -> renders ts args out -> len < 2 ^ 31 ->
  exists b', RedVSNPrintf b len (format_text ts) (map arg_of args) =
      Some (b', if N.of_nat (length out) <? len then Z.of_nat (length out) else (-1)%Z) /\
    (forall j, j < len -> j < N.of_nat (length out) -> b' j = nth (N.to_nat j) out 0) /\
    (N.of_nat (length out) < len -> b' (N.of_nat (length out)) = 0) /\
    (forall j, len <= j -> b' j = b j).
Proof.
  intros ts args out b len OK R L. unfold RedVSNPrintf.
  destruct (vloop_renders b len ts OK args out R [] ltac:(apply Forall_nil) (S (length (format_text ts))) b 0 [] ltac:(cbn [app]; lia)) as (b1 & i1 & V & HI & HB & HE).
  { split; [cbn [length]; lia|]. split; auto. intros j J. lia. }
  cbn [app] in *. rewrite V. change (2 ^ 31) with 2147483648 in L. destruct (N.ltb_spec i1 len) as [L1|L1].
  - assert (E : i1 = N.of_nat (length out)) by lia. destruct (N.ltb_spec (N.of_nat (length out)) len) as [L2|]; [|lia]. eexists. split; [rewrite i32_id by lia; rewrite E, nat_N_Z; reflexivity|].
    unfold upd. split; [|split].
    + intros j J1 J2. destruct (N.eqb_spec j (N.of_nat (length out))); [lia|]. apply HB. lia.
    + intros _. rewrite N.eqb_refl. reflexivity.
    + intros j J. destruct (N.eqb_spec j (N.of_nat (length out))); [lia|]. auto.
  - destruct (N.ltb_spec (N.of_nat (length out)) len) as [L2|]; [lia|]. eexists. split; [reflexivity|]. split; [|split; [lia|auto]].
    intros j J1 J2. apply HB. lia.
Qed.

(** "n=%05d %-3s|%%%hx" with -42, "a" and 0xBEEF. *)
Lemma w42 : written 10 [52; 50] 42.
Proof.
  exists [4; 2]. split; [split; [|discriminate]|split; [reflexivity|split; [|split; [discriminate|discriminate]]]].
  - apply Forall2_cons; [split; [lia|left; lia]|apply Forall2_cons; [split; [lia|left; lia]|apply Forall2_nil]].
  - repeat (apply Forall_cons; [lia|]). apply Forall_nil.
Qed.
Lemma wBEEF : written 16 [66; 69; 69; 70] 48879.
Proof.
  exists [11; 14; 14; 15]. split; [split; [|discriminate]|split; [reflexivity|split; [|split; [discriminate|discriminate]]]].
  - repeat (apply Forall2_cons; [split; [lia|right; lia]|]). apply Forall2_nil.
  - repeat (apply Forall_cons; [lia|]). apply Forall_nil.
Qed.
Definition example_format : list item :=
  [Lit 110; Lit 61; Conv false (Some 48) (WNum [54] [6]) (Dec SI); Lit 32; Conv true None WStar Str; Lit 124; Percent; Conv false None WNone (Hex SH)].
Example C51_example :
  Forall item_ok example_format /\
  renders example_format [AnInt (-42); AnInt 3; AString (Some [97]); AnInt 48879]
    [110; 61; 48; 48; 48; 45; 52; 50; 32; 97; 32; 32; 124; 37; 66; 69; 69; 70].
Proof.
  split.
  - unfold example_format. repeat (apply Forall_cons; [|]); try apply Forall_nil; cbn [item_ok]; repeat split; auto; try discriminate; try (intros; discriminate).
    apply Forall2_cons; [split; [lia|left; lia]|apply Forall2_nil].
  - unfold example_format. apply R_lit, R_lit.
    change (48 :: 48 :: 48 :: 45 :: 52 :: 50 :: ?t) with ([48; 48; 48; 45; 52; 50] ++ t).
    change [48; 48; 48; 45; 52; 50] with (padded (Dec SI) false (Some 48) 6 [45; 52; 50]). 
    apply R_conv with (args := [AnInt (-42); AnInt 3; AString (Some [97]); AnInt 48879]) (a := AnInt (-42)) (rest := [AnInt 3; AString (Some [97]); AnInt 48879]).
    + apply (T_num [54] [6]).
    + apply V_neg; [cbn [bits]; lia|exact w42].
    + apply R_lit. change (97 :: 32 :: 32 :: ?t) with ([97; 32; 32] ++ t). change [97; 32; 32] with (padded Str true None (Z.to_N 3) [97]).
      apply R_conv with (a := AString (Some [97])) (rest := [AnInt 48879]); [apply T_star; lia|apply V_str|].
      apply R_lit, R_pct. change [66; 69; 69; 70] with (padded (Hex SH) false None 0 [66; 69; 69; 70] ++ []).
      apply R_conv with (a := AnInt 48879) (rest := []); [apply T_none|apply V_hex; [cbn [bits]; lia|exact wBEEF]|apply R_nil].
Qed.

(** "Fill characters and field widths are supported per the ANSI standard, as is left justification": not so for numbers and
    characters.  "%05d" of -5 is "000-5" (ANSI C: "-0005"); "%-3d|" of 5 is "  5|" ("5  |"); "%3c" of 'A' is "A" ("  A").
    And "%5%" is taken for a "%%" of length 3, where a REDASSERT says "always has a length of two". *)
Definition shown (format : list N) (args : list arg) : option (list N * Z) :=
  match RedVSNPrintf (fun _ => 0) 20 format args with
  | Some (b, r) => Some (map (fun j => b (N.of_nat j)) (seq 0 (Z.to_nat r)), r)
  | None => None
  end.
Theorem C51_ansi_refuted :
  shown [37; 48; 53; 100] [AInt (-5)] = Some ([48; 48; 48; 45; 53], 5%Z) /\
  shown [37; 45; 51; 100; 124] [AInt 5] = Some ([32; 32; 53; 124], 4%Z) /\
  shown [37; 51; 99] [AInt 65] = Some ([65], 1%Z) /\
  (exists f, ParseFormatSpecifier [37; 53; 37] = Some (3%nat, f) /\ f_type f = PPct).
Proof.
  split; [reflexivity|]. split; [reflexivity|]. split; [reflexivity|]. eexists. split; [reflexivity|]. reflexivity.
Qed.
