(** C52: parsing of command lines (tools/getopt.c). *)
From Verif Require Import Base GetoptSpec Getopt GetoptP.
From Coq Require Import List Arith. Import ListNotations.
Ltac Zify.zify_post_hook ::= idtac.
Open Scope nat_scope.

(** Successive calls of f, until one returns -1 *)
Inductive calls (f : gst -> gst * gres) : gst -> list event -> gst -> Prop :=
| C_end s s' r : f s = (s', r) -> ret r = (-1)%Z -> calls f s [] s'
| C_more s s1 r evs s' : f s = (s1, r) -> ret r <> (-1)%Z -> calls f s1 evs s' ->
    calls f s (mkE (ret r) (optarg s1) (ridx r) (rset r) :: evs) s'.

Lemma cycle_len k : forall pos c mid a b l, length (cycle k pos c mid a b l) = length l.
Proof. induction k as [|k IH]; intros; cbn [cycle]; cbv zeta; auto. rewrite IH. rewrite !set_len. reflexivity. Qed.
Lemma cycles_len k : forall i L mid a b l, length (cycles k i L mid a b l) = length l.
Proof. induction k as [|k IH]; intros; cbn [cycles]; auto. rewrite IH. apply cycle_len. Qed.
Lemma permute_len a b c l : length (permute_args a b c l) = length l. Proof. apply cycles_len. Qed.

(** Between two words: A and C are option words, B the operands skipped, R what is left *)
Definition pos_of (A B C : list (list N)) := length A + length B + length C.
Definition between (s : gst) (A B C R : list (list N)) : Prop :=
  argv s = A ++ B ++ C ++ R /\ optind s = pos_of A B C /\ 0 < length A /\ place s = [] /\ optreset s = false /\
  (B = [] /\ C = [] /\ ns s = None /\ ne s = None \/
   B <> [] /\ C = [] /\ ns s = Some (length A) /\ ne s = None \/
   B <> [] /\ C <> [] /\ ns s = Some (length A) /\ ne s = Some (length A + length B)).
(** In a word of options, p is left of it *)
Definition inside (s : gst) (A B C R : list (list N)) (p : list N) : Prop :=
  argv s = A ++ B ++ C ++ R /\ optind s = pos_of A B C /\ 0 < length A /\ place s = p /\ optreset s = false /\
  (B = [] /\ C = [] /\ ns s = None /\ ne s = None \/
   B <> [] /\ ns s = Some (length A) /\ ne s = Some (length A + length B)).
Lemma advance s A B C g R p s2 : inside s A B C (g ++ R) p -> g <> [] -> argv s2 = argv s -> optind s2 = optind s + length g -> place s2 = [] ->
  optreset s2 = false -> ns s2 = ns s -> ne s2 = ne s -> exists A1 C1, between s2 A1 B C1 R /\ A1 ++ C1 = A ++ C ++ g.
Proof.
  intros (HA & HO & H0 & HP & HR & M) G E1 E2 E3 E4 E5 E6. unfold pos_of in *. destruct M as [(-> & -> & N1 & N2)|(NB & N1 & N2)].
  - exists (A ++ g), []. split; [|rewrite app_nil_r; reflexivity]. split; [rewrite E1, HA; cbn [app]; rewrite <- app_assoc; reflexivity|].
    split; [unfold pos_of; rewrite E2, HO, app_length; cbn [length]; lia|]. split; [rewrite app_length; lia|]. split; auto. split; auto. left. rewrite E5, E6. auto.
  - exists A, (C ++ g). split; [|reflexivity]. split; [rewrite E1, HA, <- !app_assoc; reflexivity|].
    split; [unfold pos_of; rewrite E2, HO, app_length; lia|]. split; auto. split; auto. split; auto. right. right. rewrite E5, E6. repeat split; auto.
    destruct C; [destruct g; [congruence|discriminate]|discriminate].
Qed.
Lemma nth_here A B C w R : nth_error (A ++ B ++ C ++ w :: R) (pos_of A B C) = Some w.
Proof.
  unfold pos_of. rewrite nth_error_app2 by lia. rewrite nth_error_app2 by lia. rewrite nth_error_app2 by lia.
  replace (length A + length B + length C - length A - length B - length C) with 0 by lia. reflexivity.
Qed.
Lemma nth_next A B C w a R : nth_error (A ++ B ++ C ++ w :: a :: R) (S (pos_of A B C)) = Some a.
Proof.
  unfold pos_of. rewrite nth_error_app2 by lia. rewrite nth_error_app2 by lia. rewrite nth_error_app2 by lia.
  replace (S (length A + length B + length C) - length A - length B - length C) with 1 by lia. reflexivity.
Qed.
Lemma nth_end A B C : nth_error (A ++ B ++ C ++ []) (pos_of A B C) = None.
Proof. apply nth_error_None. rewrite !app_length. unfold pos_of. cbn [length]. lia. Qed.

Section parse.
Variables (options : list N) (longs : option (list longopt)).
Hypothesis (NS : hd 0%N options <> 43%N /\ hd 0%N options <> 45%N).
Let F := getopt_internal options longs.
Definition noarg (s : gst) : gst := mkG (argv s) (optind s) (place s) (ns s) (ne s) None (optopt s) false.
Definition body (s : gst) : gst * gres :=
  match longs, place s with
  | Some ls, c :: r =>
    if (c =? 45)%N then
      let '(s1, rv) := parse_long_options options ls false (set_opt s (optind s) r (optarg s) (optopt s)) in
      if (ret rv =? -1)%Z then short_option options longs s1 else (set_opt s1 (optind s1) [] (optarg s1) (optopt s1), rv)
    else short_option options longs s
  | _, _ => short_option options longs s
  end.
Lemma F_eq s : optreset s = false -> 0 < optind s ->
  F s = match scan (S (length (argv s))) true false (noarg s) with inl r => r | inr s => body s end.
Proof.
  intros R O. unfold F, getopt_internal. destruct (Nat.eqb_spec (optind s) 0); [lia|]. rewrite R.
  destruct NS as (N1 & N2). destruct (N.eqb_spec (hd 0%N options) 45); [contradiction|]. destruct (N.eqb_spec (hd 0%N options) 43); [contradiction|].
  cbn [orb negb]. reflexivity.
Qed.
Lemma F_inside s A B C R p : inside s A B C R p -> p <> [] -> F s = body (noarg s).
Proof.
  intros (HA & HO & H0 & HP & HR & M) NP. rewrite F_eq by (auto; rewrite HO; unfold pos_of; lia). cbn [scan]. cbn [noarg optreset place].
  rewrite HP. destruct p; [congruence|]. reflexivity.
Qed.
(** A word of options begins *)
Lemma F_word s A B C p R : between s A B C ((45%N :: p) :: R) -> p <> [] -> p <> [45%N] ->
  exists s1, F s = body s1 /\ inside s1 A B C ((45%N :: p) :: R) p /\ optarg s1 = None.
Proof.
  intros (HA & HO & H0 & HP & HR & M) NP ND. rewrite F_eq by (auto; rewrite HO; unfold pos_of; lia). cbn [scan].
  cbn [noarg optreset place argv optind ns ne optarg optopt]. rewrite HP, HA, HO, nth_here. destruct p as [|c p]; [congruence|].
  change (45 =? 45)%N with true. cbn [negb]. cbv iota. cbn [tl]. unfold eqs. destruct (list_eq_dec N.eq_dec (c :: p) [45%N]); [contradiction|].
  eexists. split; [reflexivity|]. split; [|reflexivity]. split; [reflexivity|]. split; [reflexivity|]. split; auto. split; auto. split; auto. cbn [ns ne].
  destruct M as [(-> & -> & -> & ->)|[(NB & -> & -> & ->)|(NB & NC & -> & ->)]]; [left; auto|right|right; auto].
  repeat split; auto. unfold pos_of. cbn [length]. f_equal. lia.
Qed.
(** An operand is skipped *)
Lemma scan_fuel : forall k k' pm al s, length (argv s) - optind s < k -> length (argv s) - optind s < k' -> scan k pm al s = scan k' pm al s.
Proof.
  induction k as [|k IH]; intros k' pm al s K K'; [lia|]. destruct k' as [|k']; [lia|]. cbn [scan].
  destruct (optreset s), (place s); auto; destruct (nth_error (argv s) (optind s)) as [w|] eqn:E; auto;
    assert (OL : optind s < length (argv s)) by (apply nth_error_Some; rewrite E; discriminate);
    destruct (negb (match w with c :: _ :: _ => (c =? 45)%N | _ => false end)); auto; destruct al; auto; destruct (negb pm); auto;
    destruct (ns s), (ne s); apply IH; cbn [argv optind]; rewrite ?permute_len; lia.
Qed.
Lemma F_operand s A B C w R : between s A B C (w :: R) -> operand w ->
  exists s1 A1 C1, F s = F s1 /\ between s1 A1 (B ++ [w]) C1 R /\ A1 ++ C1 = A ++ C.
Proof.
  intros H OP. pose proof H as (HA & HO & H0 & HP & HR & M).
  assert (NOP : (match w with c :: _ :: _ => (c =? 45)%N | _ => false end) = false).
  { destruct w as [|c [|d r]]; auto. destruct OP as [OP|OP]; [discriminate|]. apply N.eqb_neq. intros ->. apply OP. reflexivity. }
  assert (LA : length (argv s) = pos_of A B C + S (length R)) by (rewrite HA, !app_length; unfold pos_of; cbn [length]; lia).
  assert (STEP : forall a i n1 n2, 0 < i -> length a = length (argv s) -> S i = S (pos_of A B C) ->
     scan (S (length (argv s))) true false (noarg s) = scan (length (argv s)) true false (mkG a (S i) [] n1 n2 None (optopt s) false) ->
     F s = F (mkG a (S i) [] n1 n2 None (optopt s) false)).
  { intros a i n1 n2 I0 LE IE SC. rewrite (F_eq s) by (auto; rewrite HO; unfold pos_of; lia). rewrite SC.
    rewrite (F_eq (mkG a (S i) [] n1 n2 None (optopt s) false)) by (cbn [optreset optind]; auto; lia). unfold noarg. cbn [argv optind place ns ne optopt].
    rewrite (scan_fuel (length (argv s)) (S (length a))); auto; cbn [argv optind]; lia. }
  assert (P0 : 0 < pos_of A B C) by (unfold pos_of; lia).
  destruct M as [(-> & -> & N1 & N2)|[(NB & -> & N1 & N2)|(NB & NC & N1 & N2)]].
  - exists (mkG (argv s) (S (pos_of A [] [])) [] (Some (length A)) None None (optopt s) false), A, []. split; [|split; [|reflexivity]].
    + apply STEP; auto. cbn [scan]. cbn [noarg optreset place argv optind ns ne optarg optopt]. rewrite HP, HA, HO, nth_here, NOP, N1, N2. cbn [negb]. cbv iota.
      cbn [argv optind ns ne optarg optopt]. unfold pos_of. cbn [length]. rewrite !Nat.add_0_r. reflexivity.
    + split; [cbn [argv]; rewrite HA; reflexivity|]. split; [unfold pos_of; cbn [optind length app]; lia|]. split; auto. split; auto. split; auto. right. left. repeat split; auto. discriminate.
  - exists (mkG (argv s) (S (pos_of A B [])) [] (Some (length A)) None None (optopt s) false), A, []. split; [|split; [|reflexivity]].
    + apply STEP; auto. cbn [scan]. cbn [noarg optreset place argv optind ns ne optarg optopt]. rewrite HP, HA, HO, nth_here, NOP, N1, N2. reflexivity.
    + split; [cbn [argv]; rewrite HA, <- app_assoc; reflexivity|]. split; [unfold pos_of; cbn [optind]; rewrite app_length; cbn [length]; lia|]. split; auto. split; auto. split; auto.
      right. left. repeat split; auto. destruct B; discriminate.
  - exists (mkG ((A ++ C) ++ (B ++ [w]) ++ R) (S (pos_of A B C)) [] (Some (length (A ++ C))) None None (optopt s) false), (A ++ C), []. split; [|split; [|apply app_nil_r]].
    + apply STEP; auto. { rewrite LA, !app_length. unfold pos_of. cbn [length]. lia. }
      cbn [scan]. cbn [noarg optreset place argv optind ns ne optarg optopt]. rewrite HP, HA, HO, nth_here, NOP, N1, N2. cbn [negb]. cbv iota. cbn [argv optind ns ne optarg optopt].
      unfold pos_of. rewrite (permute_ok A B C (w :: R)) by auto. rewrite <- HA. replace (A ++ C ++ B ++ w :: R) with ((A ++ C) ++ (B ++ [w]) ++ R) by (rewrite <- !app_assoc; reflexivity).
      rewrite app_length. replace (length A + length B + length C - (length A + length B - length A)) with (length A + length C) by lia. reflexivity.
    + split; [reflexivity|]. split; [unfold pos_of; cbn [optind length]; rewrite !app_length; cbn [length]; lia|]. split; [rewrite app_length; lia|]. split; auto. split; auto.
      right. left. repeat split; auto. destruct B; discriminate.
Qed.
(** The end of the options *)
Lemma F_end s A B C : between s A B C [] -> exists s' r, F s = (s', r) /\ ret r = (-1)%Z /\ argv s' = A ++ C ++ B /\ optind s' = length A + length C.
Proof.
  intros (HA & HO & H0 & HP & HR & M). rewrite F_eq by (auto; rewrite HO; unfold pos_of; lia). cbn [scan].
  cbn [noarg optreset place argv optind ns ne optarg optopt]. rewrite HP, HA, HO, nth_end. cbn [argv optind ns ne optarg optopt].
  destruct M as [(-> & -> & N1 & N2)|[(NB & -> & N1 & N2)|(NB & NC & N1 & N2)]]; rewrite N1, N2.
  - eexists _, _. split; [reflexivity|]. split; [reflexivity|]. unfold permute_back, pos_of. cbn [ns ne argv optind length]. rewrite !app_nil_r. split; [reflexivity|lia].
  - eexists _, _. split; [reflexivity|]. split; [reflexivity|]. cbn [argv optind length app]. rewrite !app_nil_r. split; [reflexivity|lia].
  - eexists _, _. split; [reflexivity|]. split; [reflexivity|]. unfold permute_back, pos_of. cbn [ns ne argv optind]. rewrite (permute_ok A B C []) by auto. rewrite !app_nil_r. split; [reflexivity|lia].
Qed.
Lemma F_dashes s A B C R : between s A B C ([45%N; 45%N] :: R) ->
  exists s' r, F s = (s', r) /\ ret r = (-1)%Z /\ argv s' = A ++ C ++ [[45%N; 45%N]] ++ B ++ R /\ optind s' = length A + length C + 1.
Proof.
  intros (HA & HO & H0 & HP & HR & M). rewrite F_eq by (auto; rewrite HO; unfold pos_of; lia). cbn [scan].
  cbn [noarg optreset place argv optind ns ne optarg optopt]. rewrite HP, HA, HO, nth_here. cbn [argv optind ns ne optarg optopt].
  change (45 =? 45)%N with true. cbn [negb]. cbv iota. cbn [tl]. change (eqs [45%N] [45%N]) with true. cbv iota.
  assert (PP : B <> [] -> permute_args (length A) (length A + length B) (S (pos_of A B C)) (A ++ B ++ C ++ [45%N; 45%N] :: R) = A ++ C ++ [[45%N; 45%N]] ++ B ++ R).
  { intros NB. pose proof (permute_ok A B (C ++ [[45%N; 45%N]]) R NB ltac:(destruct C; discriminate)) as P. rewrite app_length in P. cbn [length] in P.
    rewrite <- !app_assoc in P. cbn [app] in P. unfold pos_of. replace (S (length A + length B + length C)) with (length A + length B + (length C + 1)) by lia. exact P. }
  destruct M as [(-> & -> & N1 & N2)|[(NB & -> & N1 & N2)|(NB & NC & N1 & N2)]]; rewrite N1, N2.
  - eexists _, _. split; [reflexivity|]. split; [reflexivity|]. unfold permute_back, pos_of. cbn [ns ne argv optind length app]. split; [reflexivity|lia].
  - eexists _, _. split; [reflexivity|]. split; [reflexivity|]. unfold permute_back. cbn [ns ne argv optind]. replace (pos_of A B []) with (length A + length B) at 1 by (unfold pos_of; cbn [length]; lia).
    rewrite PP by auto. split; [reflexivity|]. unfold pos_of. cbn [length]. lia.
  - eexists _, _. split; [reflexivity|]. split; [reflexivity|]. unfold permute_back. cbn [ns ne argv optind]. rewrite PP by auto. split; [reflexivity|]. unfold pos_of. lia.
Qed.

(** Short options *)
Lemma strchr_ok x c y : ~ In c x -> strchr (x ++ c :: y) c = Some y.
Proof.
  induction x as [|d x IH]; intros NI; cbn [app strchr]; [rewrite N.eqb_refl; reflexivity|].
  destruct (N.eqb_spec d c) as [->|]; [exfalso; apply NI; left; reflexivity|]. apply IH. intros H. apply NI. right. exact H.
Qed.
Lemma colon_no y : ~ begins 58 y -> (match y with x :: _ => (x =? 58)%N | [] => false end) = false.
Proof. intros H. destruct y as [|x r]; auto. apply N.eqb_neq. intros ->. apply H. exists r. reflexivity. Qed.
Definition finish (s : gst) (n : nat) (a : option (list N)) : gst := set_opt s n [] a (optopt s).
Lemma body_short s c r t : place s = c :: r -> declares options c t ->
  body s = match t, r with
    | NoArg, [] => (finish s (S (optind s)) (optarg s), plain_ret (Z.of_N c))
    | NoArg, _ => (set_opt s (optind s) r (optarg s) (optopt s), plain_ret (Z.of_N c))
    | _, _ :: _ => (finish s (S (optind s)) (Some r), plain_ret (Z.of_N c))
    | Required, [] => match nth_error (argv s) (S (optind s)) with
        | Some w => (finish s (S (S (optind s))) (Some w), plain_ret (Z.of_N c))
        | None => (set_opt s (S (optind s)) [] None (Z.of_N c), plain_ret (BADARG options)) end
    | Optional, [] => (finish s (S (optind s)) None, plain_ret (Z.of_N c))
    end.
Proof.
  intros P (C58 & C45 & x & y & E & NI & T).
  assert (B : body s = short_option options longs s).
  { unfold body. rewrite P. destruct longs; auto. destruct (N.eqb_spec c 45); [contradiction|reflexivity]. }
  rewrite B. unfold short_option. rewrite P. destruct (N.eqb_spec c 58); [contradiction|]. destruct (N.eqb_spec c 45); [contradiction|]. cbn [orb andb].
  pose proof (strchr_ok x c y NI) as SC. rewrite <- E in SC. rewrite SC.
  assert (W : ((c =? 87)%N && match y with x :: _ => (x =? 59)%N | [] => false end) = false).
  { destruct (N.eqb_spec c 87) as [->|]; auto. cbn [andb]. destruct t.
    - destruct T as (_ & T). specialize (T eq_refl). destruct y as [|z r0]; auto. apply N.eqb_neq. intros ->. apply T. exists r0. reflexivity.
    - destruct T as (z & -> & _). reflexivity.
    - destruct T as (z & ->). reflexivity. }
  rewrite W.
  destruct longs as [ls|]; destruct t.
  - destruct T as (T & _). rewrite colon_no by auto. cbn [negb]. destruct r; reflexivity.
  - destruct T as (z & -> & T). change (58 =? 58)%N with true. cbn [negb tl]. rewrite colon_no by auto. cbn [negb]. destruct r; auto.
  - destruct T as (z & ->). change (58 =? 58)%N with true. cbn [negb tl]. cbv iota. change (58 =? 58)%N with true. cbn [negb]. destruct r; auto.
  - destruct T as (T & _). rewrite colon_no by auto. cbn [negb]. destruct r; reflexivity.
  - destruct T as (z & -> & T). change (58 =? 58)%N with true. cbn [negb tl]. rewrite colon_no by auto. cbn [negb]. destruct r; auto.
  - destruct T as (z & ->). change (58 =? 58)%N with true. cbn [negb tl]. cbv iota. change (58 =? 58)%N with true. cbn [negb]. destruct r; auto.
Qed.
Lemma strchr_none o c : ~ In c o -> strchr o c = None.
Proof.
  induction o as [|d o IH]; intros NI; cbn [strchr]; auto. destruct (N.eqb_spec d c) as [->|]; [exfalso; apply NI; left; reflexivity|].
  apply IH. intros H. apply NI. right. exact H.
Qed.
Lemma simple_not45 c : simple options c -> c <> 45%N. Proof. intros [(_ & H & _)|[H _]]; exact H. Qed.
Lemma body_flag s c r : place s = c :: r -> simple options c -> exists o z,
  body s = (set_opt s (match r with [] => S (optind s) | _ => optind s end) r (optarg s) o, plain_ret z) /\ z <> (-1)%Z /\ mkE z None None None = flag_event options c.
Proof.
  intros P [D|(C45 & U)].
  - pose proof (body_short s c r NoArg P D) as BS. exists (optopt s), (Z.of_N c). split; [rewrite BS; destruct r; reflexivity|]. split; [lia|].
    unfold flag_event. destruct D as (C58 & _ & x & y & E & _). destruct (in_dec N.eq_dec c options) as [_|NI].
    + destruct (N.eqb_spec c 58); [contradiction|reflexivity].
    + exfalso. apply NI. rewrite E. apply in_or_app. right. left. reflexivity.
  - exists (Z.of_N c), 63%Z. split; [|split; [discriminate|]].
    + assert (B : body s = short_option options longs s).
      { unfold body. rewrite P. destruct longs; auto. destruct (N.eqb_spec c 45); [contradiction|reflexivity]. }
      rewrite B. unfold short_option. rewrite P. destruct (N.eqb_spec c 45); [contradiction|]. cbn [andb]. rewrite Bool.orb_false_r.
      destruct (N.eqb_spec c 58); [reflexivity|]. destruct U as [NI|]; [|contradiction]. rewrite strchr_none by exact NI. reflexivity.
    + unfold flag_event. destruct (in_dec N.eq_dec c options) as [I|_]; auto. destruct U as [NI| ->]; [contradiction|reflexivity].
Qed.
Lemma more s0 s s1 r evs s' : F s0 = body s -> body s = (s1, r) -> ret r <> (-1)%Z -> calls F s1 evs s' ->
  calls F s0 (mkE (ret r) (optarg s1) (ridx r) (rset r) :: evs) s'.
Proof. intros E1 E2 NR H. apply C_more; auto. congruence. Qed.
Lemma flags_then A B C R t : t <> [] -> forall cs s0 s, F s0 = body s -> inside s A B C R (cs ++ t) -> optarg s = None ->
  Forall (simple options) cs ->
  exists s1 s2, F s1 = body s2 /\ inside s2 A B C R t /\ optarg s2 = None /\
    forall evs s', calls F s1 evs s' -> calls F s0 (flag_events options cs ++ evs) s'.
Proof.
  intros NT. induction cs as [|c cs IH]; intros s0 s E I O FA.
  - exists s0, s. split; auto.
  - inversion FA as [|? ? D FA2]; subst. pose proof I as (HA & HO & H0 & HP & HR & M). cbn [app] in HP.
    destruct (body_flag s c (cs ++ t) HP D) as (o & z & BS & NZ & EV).
    assert (X : body s = (set_opt s (optind s) (cs ++ t) (optarg s) o, plain_ret z)).
    { rewrite BS. destruct (cs ++ t) eqn:X; auto. destruct cs; [cbn [app] in X; congruence|discriminate]. }
    set (s1 := set_opt s (optind s) (cs ++ t) (optarg s) o) in *.
    assert (I1 : inside s1 A B C R (cs ++ t)) by (split; [exact HA|split; [exact HO|split; [exact H0|split; [reflexivity|split; [exact HR|exact M]]]]]).
    assert (E1 : F s1 = body (noarg s1)) by (apply (F_inside s1 A B C R (cs ++ t)); auto; destruct cs; [exact NT|discriminate]).
    assert (I2 : inside (noarg s1) A B C R (cs ++ t)) by (split; [exact HA|split; [exact HO|split; [exact H0|split; [reflexivity|split; [reflexivity|exact M]]]]]).
    destruct (IH s1 (noarg s1) E1 I2 eq_refl FA2) as (s3 & s4 & E3 & I3 & O3 & K). exists s3, s4. split; auto. split; auto. split; auto.
    intros evs s' CS. cbn [flag_events map app]. pose proof (more s0 s s1 _ _ s' E X NZ (K evs s' CS)) as Y.
    cbn [ret ridx rset plain_ret] in Y. unfold s1 in Y at 1. cbn [set_opt optarg] in Y. rewrite O, EV in Y. exact Y.
Qed.

(** Long options *)
Lemma split_no n : ~ In 61%N n -> split_eq n = (n, None).
Proof.
  induction n as [|c n IH]; intros NI; auto. cbn [split_eq]. destruct (N.eqb_spec c 61) as [->|]; [exfalso; apply NI; left; reflexivity|].
  rewrite IH; auto. intros H. apply NI. right. exact H.
Qed.
Lemma split_yes n a : ~ In 61%N n -> split_eq (n ++ 61%N :: a) = (n, Some a).
Proof.
  induction n as [|c n IH]; intros NI; auto. cbn [app split_eq]. destruct (N.eqb_spec c 61) as [->|]; [exfalso; apply NI; left; reflexivity|].
  rewrite IH; auto. intros H. apply NI. right. exact H.
Qed.
Lemma find_ok name o : o_name o = name -> forall ls i k mt sec, nth_error ls i = Some o -> (forall j p, j < i -> nth_error ls j = Some p -> o_name p <> name) ->
  exists sec', find_long k ls name false mt sec = (true, Some (k + i, o), sec').
Proof.
  intros ON. induction ls as [|p ls IH]; intros i k mt sec E NE; [destruct i; discriminate|]. destruct i as [|i].
  - injection E as ->. cbn [find_long]. rewrite ON, firstn_all. unfold eqs. destruct (list_eq_dec N.eq_dec name name); [|congruence]. cbn [negb].
    rewrite Nat.eqb_refl, Nat.add_0_r. eauto.
  - assert (NP : o_name p <> name) by (apply (NE 0); [lia|reflexivity]).
    assert (K : forall mt sec, exists sec', find_long (S k) ls name false mt sec = (true, Some (k + S i, o), sec')).
    { intros mt' sec'. replace (k + S i) with (S k + i) by lia. apply IH; auto. intros j q J Q. apply (NE (S j)); [lia|exact Q]. }
    cbn [find_long]. unfold eqs. destruct (list_eq_dec N.eq_dec (firstn (length name) (o_name p)) name) as [EQ|]; [|apply K]. cbn [negb].
    destruct (Nat.eqb_spec (length (o_name p)) (length name)) as [LE|]; [exfalso; apply NP; rewrite <- EQ, <- LE, firstn_all; reflexivity|].
    cbn [andb]. destruct mt as [[x m]|]; apply K.
Qed.
Lemma prefix_no (nm x : list N) : (forall more, x <> nm ++ more) -> firstn (length nm) x <> nm.
Proof. intros H E. apply (H (skipn (length nm) x)). rewrite <- E at 1. symmetry. apply firstn_skipn. Qed.
Lemma find_rest nm ls : (forall j p, nth_error ls j = Some p -> forall more, o_name p <> nm ++ more) -> forall k mt sec,
  find_long k ls nm false mt sec = (false, mt, sec).
Proof.
  induction ls as [|p ls IH]; intros H k mt sec; cbn [find_long]; auto. unfold eqs.
  destruct (list_eq_dec N.eq_dec (firstn (length nm) (o_name p)) nm) as [EQ|_].
  - exfalso. revert EQ. apply prefix_no. apply (H 0). reflexivity.
  - cbn [negb]. apply IH. intros j q Q. apply (H (S j)). exact Q.
Qed.
Lemma find_abbr nm o more : o_name o = nm ++ more -> more <> [] -> forall ls i k, nth_error ls i = Some o ->
  (forall j p, j <> i -> nth_error ls j = Some p -> forall more, o_name p <> nm ++ more) -> find_long k ls nm false None false = (false, Some (k + i, o), false).
Proof.
  intros ON NM. induction ls as [|p ls IH]; intros i k E NE; [destruct i; discriminate|]. cbn [find_long]. unfold eqs. destruct i as [|i].
  - injection E as ->. rewrite ON, firstn_app, firstn_all, Nat.sub_diag. cbn [firstn]. rewrite app_nil_r.
    destruct (list_eq_dec N.eq_dec nm nm); [|congruence]. cbn [negb]. rewrite app_length.
    destruct (Nat.eqb_spec (length nm + length more) (length nm)) as [LE|_]; [destruct more; [congruence|cbn [length] in LE; lia]|].
    cbn [andb]. rewrite Nat.add_0_r. apply find_rest. intros j p P. apply (NE (S j)); [lia|exact P].
  - destruct (list_eq_dec N.eq_dec (firstn (length nm) (o_name p)) nm) as [EQ|_].
    + exfalso. revert EQ. apply prefix_no. apply (NE 0); [lia|reflexivity].
    + cbn [negb]. replace (k + S i) with (S k + i) by lia. apply (IH i (S k)); [exact E|]. intros j q J Q. apply (NE (S j)); [lia|exact Q].
Qed.
Lemma find_named nm i o ls : nth_error ls i = Some o ->
  (o_name o = nm /\ (forall j p, j < i -> nth_error ls j = Some p -> o_name p <> nm) \/
   (exists more, o_name o = nm ++ more) /\ (forall j p, j <> i -> nth_error ls j = Some p -> forall more, o_name p <> nm ++ more)) ->
  exists ex sec, find_long 0 ls nm false None false = (ex, Some (i, o), sec) /\ negb ex && sec = false.
Proof.
  intros E [(ON & NE)|((more & ON) & NE)].
  - destruct (find_ok nm o ON ls i 0 None false E NE) as (sec & FE). exists true, sec. auto.
  - destruct more as [|c more].
    + rewrite app_nil_r in ON. destruct (find_ok nm o ON ls i 0 None false E) as (sec & FE); [|exists true, sec; auto].
      intros j p J P X. apply (NE j p ltac:(lia) P []). rewrite app_nil_r. exact X.
    + exists false, false. split; auto. exact (find_abbr nm o (c :: more) ON ltac:(discriminate) ls i 0 E NE).
Qed.
Lemma body_long s nm i o q : place s = 45%N :: q -> named longs nm i o -> optarg s = None ->
  (q = nm /\ (o_has o = 0 \/ o_has o = 2) -> exists s1 r, body s = (s1, r) /\ ret r <> (-1)%Z /\ mkE (ret r) (optarg s1) (ridx r) (rset r) = long_event i o None /\
      s1 = finish s (S (optind s)) None) /\
  (forall a, q = nm ++ 61%N :: a /\ (o_has o = 1 \/ o_has o = 2) -> exists s1 r, body s = (s1, r) /\ ret r <> (-1)%Z /\
      mkE (ret r) (optarg s1) (ridx r) (rset r) = long_event i o (Some a) /\ s1 = finish s (S (optind s)) (Some a)) /\
  (forall a, q = nm /\ o_has o = 1 /\ nth_error (argv s) (S (optind s)) = Some a -> exists s1 r, body s = (s1, r) /\ ret r <> (-1)%Z /\
      mkE (ret r) (optarg s1) (ridx r) (rset r) = long_event i o (Some a) /\ s1 = finish s (S (S (optind s))) (Some a)).
Proof.
  intros P (ls & LS & E & NN & NI & NE & NV) O. unfold body. rewrite LS, P. change (45 =? 45)%N with true. cbv iota.
  destruct (find_named nm i o ls E NE) as (ex & sec & FE & XS). unfold long_event.
  assert (RV : forall x, (ret (match o_flag o with Some f => mkR 0 (Some i) (Some (f, o_val o)) | None => mkR (o_val o) (Some i) None end) =? -1)%Z = false /\
     mkE (ret (match o_flag o with Some f => mkR 0 (Some i) (Some (f, o_val o)) | None => mkR (o_val o) (Some i) None end)) x
         (ridx (match o_flag o with Some f => mkR 0 (Some i) (Some (f, o_val o)) | None => mkR (o_val o) (Some i) None end))
         (rset (match o_flag o with Some f => mkR 0 (Some i) (Some (f, o_val o)) | None => mkR (o_val o) (Some i) None end)) =
     match o_flag o with None => mkE (o_val o) x (Some i) None | Some f => mkE 0 x (Some i) (Some (f, o_val o)) end).
  { intros x. destruct (o_flag o); cbn [ret ridx rset]; split; auto. apply Z.eqb_neq. auto. }
  set (rv := match o_flag o with Some f => mkR 0 (Some i) (Some (f, o_val o)) | None => mkR (o_val o) (Some i) None end) in *.
  unfold parse_long_options. cbn [set_opt place optind optarg argv optopt].
  split; [|split].
  - intros (-> & H). rewrite split_no by auto. rewrite FE, XS. rewrite O. destruct (RV None) as (R1 & R2). exists (finish s (S (optind s)) None), rv.
    destruct H as [H|H]; rewrite H; cbn [Nat.eqb orb]; cbv iota; fold rv; rewrite R1; repeat split; auto; apply Z.eqb_neq; auto.
  - intros a (-> & H). rewrite split_yes by auto. rewrite FE, XS. destruct (RV (Some a)) as (R1 & R2). exists (finish s (S (optind s)) (Some a)), rv.
    destruct H as [H|H]; rewrite H; cbn [Nat.eqb orb]; cbv iota; fold rv; rewrite R1; repeat split; auto; apply Z.eqb_neq; auto.
  - intros a (-> & H & NA). rewrite split_no by auto. rewrite FE, XS. destruct (RV (Some a)) as (R1 & R2). exists (finish s (S (S (optind s))) (Some a)), rv.
    rewrite H. cbn [Nat.eqb orb]. cbv iota. rewrite NA. fold rv. rewrite R1. repeat split; auto; apply Z.eqb_neq; auto.
Qed.

(** Long options that are wrong *)
Lemma body_nameless s nm q : place s = 45%N :: q -> optarg s = None -> q = nm \/ (exists a, q = nm ++ 61%N :: a) -> nameless longs nm ->
  exists o, body s = (set_opt s (1 + optind s) [] None o, plain_ret 63).
Proof.
  intros P O Q (ls & LS & NN & NI & NE). unfold body. rewrite LS, P. change (45 =? 45)%N with true. cbv iota.
  unfold parse_long_options. cbn [set_opt place optind optarg argv optopt].
  assert (X : exists h, split_eq q = (nm, h)) by (destruct Q as [->|(a & ->)]; [rewrite split_no by auto|rewrite split_yes by auto]; eauto).
  destruct X as (h & ->). rewrite find_rest by exact NE. cbn [negb andb]. rewrite O. eexists. reflexivity.
Qed.
Lemma body_unwanted s nm i o a : place s = 45%N :: nm ++ 61%N :: a -> optarg s = None -> named longs nm i o -> o_has o = 0 ->
  exists p, body s = (set_opt s (1 + optind s) [] None p, plain_ret 63).
Proof.
  intros P O (ls & LS & E & NN & NI & NE & NV) H. unfold body. rewrite LS, P. change (45 =? 45)%N with true. cbv iota.
  destruct (find_named nm i o ls E NE) as (ex & sec & FE & XS).
  unfold parse_long_options. cbn [set_opt place optind optarg argv optopt]. rewrite split_yes by auto. rewrite FE, XS, H, O. eexists. reflexivity.
Qed.

(** Ambiguous long options *)
Definition key (o : longopt) : nat * option nat * Z := (o_has o, o_flag o, o_val o).
Lemma differs_key o m : negb (o_has o =? o_has m) || negb (match o_flag o, o_flag m with Some x, Some y => x =? y | None, None => true | _, _ => false end)
  || negb (o_val o =? o_val m)%Z = false -> key o = key m.
Proof.
  intros H. apply Bool.orb_false_iff in H as [H H3]. apply Bool.orb_false_iff in H as [H1 H2]. apply Bool.negb_false_iff in H1, H2, H3.
  apply Nat.eqb_eq in H1. apply Z.eqb_eq in H3. unfold key. rewrite H1, H3.
  destruct (o_flag o), (o_flag m); try discriminate; auto. apply Nat.eqb_eq in H2. rewrite H2. reflexivity.
Qed.
Lemma key_dec (a b : nat * option nat * Z) : {a = b} + {a <> b}.
Proof. decide equality; [apply Z.eq_dec|]. decide equality; [decide equality; apply Nat.eq_dec|apply Nat.eq_dec]. Qed.
Lemma matches nm p : (firstn (length nm) (o_name p) = nm) -> o_name p <> nm -> (length (o_name p) =? length nm) = false.
Proof. intros E N. destruct (Nat.eqb_spec (length (o_name p)) (length nm)) as [L|]; auto. exfalso. apply N. rewrite <- E, <- L, firstn_all. reflexivity. Qed.
Lemma matched nm p x : o_name p = nm ++ x -> firstn (length nm) (o_name p) = nm.
Proof. intros ->. rewrite firstn_app, firstn_all, Nat.sub_diag. cbn [firstn]. apply app_nil_r. Qed.
Lemma find_second nm ls : (forall k q, nth_error ls k = Some q -> o_name q <> nm) -> forall k x m sec,
  sec = true \/ (exists j p y, nth_error ls j = Some p /\ o_name p = nm ++ y /\ key p <> key m) -> find_long k ls nm false (Some (x, m)) sec = (false, Some (x, m), true).
Proof.
  induction ls as [|q ls IH]; intros NE k x m sec H; cbn [find_long].
  - destruct H as [->|(j & p & y & H & _)]; [reflexivity|destruct j; discriminate].
  - assert (NE' : forall k q, nth_error ls k = Some q -> o_name q <> nm) by (intros k' q' Q; apply (NE (S k')); exact Q).
    unfold eqs. destruct (list_eq_dec N.eq_dec (firstn (length nm) (o_name q)) nm) as [EQ|NQ]; cbn [negb].
    + rewrite (matches nm q EQ (NE 0 q eq_refl)). cbn [andb]. apply IH; auto.
      destruct H as [->|([|j] & p & y & H & HN & HK)]; [left; reflexivity| |right; exists j, p, y; auto].
      left. injection H as ->. apply Bool.orb_true_iff. right. apply Bool.not_false_iff_true. intros X. apply differs_key in X. contradiction.
    + apply IH; auto. destruct H as [->|([|j] & p & y & H & HN & HK)]; [left; reflexivity| |right; exists j, p, y; auto].
      exfalso. injection H as ->. apply NQ. eapply matched; eauto.
Qed.
Lemma find_ambiguous nm ls : (forall k q, nth_error ls k = Some q -> o_name q <> nm) -> forall k i j o p x y,
  nth_error ls i = Some o -> nth_error ls j = Some p -> o_name o = nm ++ x -> o_name p = nm ++ y -> key o <> key p ->
  exists z, find_long k ls nm false None false = (false, z, true).
Proof.
  induction ls as [|q ls IH]; intros NE k i j o p x y HI HJ NO NP HK; [destruct i; discriminate|].
  assert (NE' : forall k q, nth_error ls k = Some q -> o_name q <> nm) by (intros k' q' Q; apply (NE (S k')); exact Q).
  cbn [find_long]. unfold eqs. destruct (list_eq_dec N.eq_dec (firstn (length nm) (o_name q)) nm) as [EQ|NQ]; cbn [negb].
  - rewrite (matches nm q EQ (NE 0 q eq_refl)). cbn [andb]. exists (Some (k, q)). apply find_second; auto. right.
    destruct i as [|i]; [injection HI as ->; destruct j as [|j]; [injection HJ as ->; contradiction|exists j, p, y; auto]|].
    destruct j as [|j]; [injection HJ as ->; exists i, o, x; auto|].
    destruct (key_dec (key o) (key q)) as [E|]; [|exists i, o, x; auto]. exists j, p, y. split; auto. split; auto. congruence.
  - destruct i as [|i]; [exfalso; injection HI as ->; apply NQ; eapply matched; eauto|]. destruct j as [|j]; [exfalso; injection HJ as ->; apply NQ; eapply matched; eauto|].
    apply (IH NE' (S k) i j o p x y); auto.
Qed.
Lemma body_ambiguous s nm q : place s = 45%N :: q -> optarg s = None -> q = nm \/ (exists a, q = nm ++ 61%N :: a) -> ambiguous longs nm ->
  exists o, body s = (set_opt s (1 + optind s) [] None o, plain_ret 63).
Proof.
  intros P O Q (ls & LS & NN & NI & NE & i & j & o & p & x & y & HI & HJ & NO & NP & HK). unfold body. rewrite LS, P. change (45 =? 45)%N with true. cbv iota.
  unfold parse_long_options. cbn [set_opt place optind optarg argv optopt].
  assert (X : exists h, split_eq q = (nm, h)) by (destruct Q as [->|(a & ->)]; [rewrite split_no by auto|rewrite split_yes by auto]; eauto).
  destruct X as (h & ->). destruct (find_ambiguous nm ls NE 0 i j o p x y HI HJ NO NP HK) as (z & ->). cbn [negb andb]. rewrite O. eexists. reflexivity.
Qed.

(** A group of options *)
Lemma F_group s A B C g gev R : between s A B C (g ++ R) -> group options longs g gev ->
  exists s1 A1 C1, between s1 A1 B C1 R /\ A1 ++ C1 = A ++ C ++ g /\ forall ev s', calls F s1 ev s' -> calls F s (gev ++ ev) s'.
Proof.
  intros H G.
  (* finishing after a state inside *)
  assert (FIN : forall s0 s2 p n a o g, inside s2 A B C (g ++ R) p -> n = length g -> g <> [] -> 
     (exists r, F s0 = body s2 /\ body s2 = (set_opt s2 (n + optind s2) [] a o, r) /\ ret r <> (-1)%Z /\ True) ->
     exists A1 C1 r, F s0 = body s2 /\ body s2 = (set_opt s2 (n + optind s2) [] a o, r) /\ ret r <> (-1)%Z /\ between (set_opt s2 (n + optind s2) [] a o) A1 B C1 R /\ A1 ++ C1 = A ++ C ++ g).
  { intros s0 s2 p n a o g0 I -> NG (r & E1 & E2 & NR & _). destruct (advance s2 A B C g0 R p (set_opt s2 (length g0 + optind s2) [] a o) I NG) as (A1 & C1 & BT & EQ); auto.
    - cbn [set_opt optind]. lia.
    - cbn [set_opt optreset]. apply I.
    - exists A1, C1, r. auto. }
  destruct G as [cs NC FA|cs c a FA D NA|cs c a FA D|cs c FA D|nm i o NM HS|nm i o a NM HS|nm i o a NM HS|nm NM|nm a NM|nm NM|nm a NM|nm i o a NM HS].
  - destruct (exists_last NC) as (cs0 & c & ->). apply Forall_app in FA. destruct FA as (F0 & FL). inversion FL as [|? ? D _]; subst.
    cbn [app] in H. destruct (F_word s A B C (cs0 ++ [c]) R H ltac:(destruct cs0; discriminate)) as (s1 & E1 & I1 & O1).
    { intros X. destruct cs0 as [|d r]; cbn [app] in X; [injection X as ->; apply simple_not45 in D; apply D; reflexivity|].
      injection X as -> X. destruct r; discriminate. }
    destruct (flags_then A B C _ [c] ltac:(discriminate) cs0 s s1 E1 I1 O1 F0) as (s2 & s3 & E3 & I3 & O3 & K).
    destruct (body_flag s3 c [] ltac:(apply I3) D) as (o & z & BS & NZ & EV).
    destruct (FIN s2 s3 [c] 1 (optarg s3) o [45%N :: cs0 ++ [c]] I3 eq_refl ltac:(discriminate)) as (A1 & C1 & r & X1 & X2 & X3 & X4 & X5).
    { eexists. split; [exact E3|]. split; [exact BS|]. split; [exact NZ|auto]. }
    eexists _, A1, C1. split; [exact X4|]. split; [exact X5|]. intros ev s' CS. unfold flag_events. rewrite map_app, <- app_assoc. apply K. cbn [map app].
    pose proof (more s2 s3 _ r ev s' X1 X2 X3 CS) as Y. rewrite BS in X2. injection X2 as <-. cbn [ret ridx rset plain_ret set_opt optarg] in Y. rewrite O3, EV in Y. exact Y.
  - cbn [app] in H. destruct (F_word s A B C (cs ++ c :: a) R H ltac:(destruct cs; discriminate)) as (s1 & E1 & I1 & O1).
    { intros X. destruct cs as [|d r]; cbn [app] in X; [injection X as _ X; contradiction|]. injection X as _ X. destruct r; discriminate. }
    destruct (flags_then A B C _ (c :: a) ltac:(discriminate) cs s s1 E1 I1 O1 FA) as (s2 & s3 & E3 & I3 & O3 & K).
    assert (BS : body s3 = (finish s3 (1 + optind s3) (Some a), plain_ret (Z.of_N c))).
    { destruct a as [|x a]; [contradiction|]. destruct D as [D|D]; rewrite (body_short s3 c (x :: a) _ ltac:(apply I3) D); reflexivity. }
    destruct (FIN s2 s3 _ 1 (Some a) (optopt s3) [45%N :: cs ++ c :: a] I3 eq_refl ltac:(discriminate)) as (A1 & C1 & r & X1 & X2 & X3 & X4 & X5).
    { eexists. split; [exact E3|]. split; [exact BS|]. split; [cbn [ret plain_ret]; lia|auto]. }
    eexists _, A1, C1. split; [exact X4|]. split; [exact X5|]. intros ev s' CS. rewrite <- app_assoc. apply K. cbn [app].
    pose proof (more s2 s3 _ r ev s' X1 X2 X3 CS) as Y. rewrite BS in X2. injection X2 as <-. exact Y.
  - cbn [app] in H. destruct (F_word s A B C (cs ++ [c]) (a :: R) H ltac:(destruct cs; discriminate)) as (s1 & E1 & I1 & O1).
    { intros X. destruct cs as [|d r]; cbn [app] in X; [injection X as ->; destruct D as (_ & D & _); apply D; reflexivity|]. injection X as _ X. destruct r; discriminate. }
    destruct (flags_then A B C _ [c] ltac:(discriminate) cs s s1 E1 I1 O1 FA) as (s2 & s3 & E3 & I3 & O3 & K).
    assert (BS : body s3 = (finish s3 (2 + optind s3) (Some a), plain_ret (Z.of_N c))).
    { rewrite (body_short s3 c [] _ ltac:(apply I3) D). destruct I3 as (HA & HO & _). rewrite HA, HO, nth_next. reflexivity. }
    destruct (FIN s2 s3 _ 2 (Some a) (optopt s3) [45%N :: cs ++ [c]; a] I3 eq_refl ltac:(discriminate)) as (A1 & C1 & r & X1 & X2 & X3 & X4 & X5).
    { eexists. split; [exact E3|]. split; [exact BS|]. split; [cbn [ret plain_ret]; lia|auto]. }
    eexists _, A1, C1. split; [exact X4|]. split; [exact X5|]. intros ev s' CS. rewrite <- app_assoc. apply K. cbn [app].
    pose proof (more s2 s3 _ r ev s' X1 X2 X3 CS) as Y. rewrite BS in X2. injection X2 as <-. exact Y.
  - cbn [app] in H. destruct (F_word s A B C (cs ++ [c]) R H ltac:(destruct cs; discriminate)) as (s1 & E1 & I1 & O1).
    { intros X. destruct cs as [|d r]; cbn [app] in X; [injection X as ->; destruct D as (_ & D & _); apply D; reflexivity|]. injection X as _ X. destruct r; discriminate. }
    destruct (flags_then A B C _ [c] ltac:(discriminate) cs s s1 E1 I1 O1 FA) as (s2 & s3 & E3 & I3 & O3 & K).
    assert (BS : body s3 = (finish s3 (1 + optind s3) None, plain_ret (Z.of_N c))) by (rewrite (body_short s3 c [] _ ltac:(apply I3) D); reflexivity).
    destruct (FIN s2 s3 _ 1 None (optopt s3) [45%N :: cs ++ [c]] I3 eq_refl ltac:(discriminate)) as (A1 & C1 & r & X1 & X2 & X3 & X4 & X5).
    { eexists. split; [exact E3|]. split; [exact BS|]. split; [cbn [ret plain_ret]; lia|auto]. }
    eexists _, A1, C1. split; [exact X4|]. split; [exact X5|]. intros ev s' CS. rewrite <- app_assoc. apply K. cbn [app].
    pose proof (more s2 s3 _ r ev s' X1 X2 X3 CS) as Y. rewrite BS in X2. injection X2 as <-. exact Y.
  - assert (NN : nm <> []) by (destruct NM as (ls & _ & _ & NN & _); exact NN). cbn [app] in H.
    destruct (F_word s A B C (45%N :: nm) R H ltac:(discriminate) ltac:(intros X; injection X as X; contradiction)) as (s1 & E1 & I1 & O1).
    destruct (body_long s1 nm i o (nm) ltac:(apply I1) NM O1) as (BL & _ & _). destruct (BL (conj eq_refl HS)) as (s2 & r2 & B1 & B2 & B3 & ->).
    destruct (FIN s s1 _ 1 None (optopt s1) [45%N :: 45%N :: nm] I1 eq_refl ltac:(discriminate)) as (A1 & C1 & r & X1 & X2 & X3 & X4 & X5).
    { eexists. split; [exact E1|]. split; [exact B1|]. split; [exact B2|auto]. }
    eexists _, A1, C1. split; [exact X4|]. split; [exact X5|]. intros ev s' CS. cbn [app]. rewrite <- B3. apply (more s s1 _ r2 ev s' E1 B1 B2 CS).
  - cbn [app] in H.
    destruct (F_word s A B C (45%N :: nm ++ 61%N :: a) R H ltac:(discriminate) ltac:(intros X; injection X as X; destruct (nm); discriminate)) as (s1 & E1 & I1 & O1).
    destruct (body_long s1 nm i o (nm ++ 61%N :: a) ltac:(apply I1) NM O1) as (_ & BL & _). destruct (BL a (conj eq_refl HS)) as (s2 & r2 & B1 & B2 & B3 & ->).
    destruct (FIN s s1 _ 1 (Some a) (optopt s1) [45%N :: 45%N :: nm ++ 61%N :: a] I1 eq_refl ltac:(discriminate)) as (A1 & C1 & r & X1 & X2 & X3 & X4 & X5).
    { eexists. split; [exact E1|]. split; [exact B1|]. split; [exact B2|auto]. }
    eexists _, A1, C1. split; [exact X4|]. split; [exact X5|]. intros ev s' CS. cbn [app]. rewrite <- B3. apply (more s s1 _ r2 ev s' E1 B1 B2 CS).
  - assert (NN : nm <> []) by (destruct NM as (ls & _ & _ & NN & _); exact NN). cbn [app] in H.
    destruct (F_word s A B C (45%N :: nm) (a :: R) H ltac:(discriminate) ltac:(intros X; injection X as X; contradiction)) as (s1 & E1 & I1 & O1).
    assert (NA : nth_error (argv s1) (S (optind s1)) = Some a) by (destruct I1 as (HA & HO & _); rewrite HA, HO; apply nth_next).
    destruct (body_long s1 nm i o (nm) ltac:(apply I1) NM O1) as (_ & _ & BL). destruct (BL a (conj eq_refl (conj HS NA))) as (s2 & r2 & B1 & B2 & B3 & ->).
    destruct (FIN s s1 _ 2 (Some a) (optopt s1) [45%N :: 45%N :: nm; a] I1 eq_refl ltac:(discriminate)) as (A1 & C1 & r & X1 & X2 & X3 & X4 & X5).
    { eexists. split; [exact E1|]. split; [exact B1|]. split; [exact B2|auto]. }
    eexists _, A1, C1. split; [exact X4|]. split; [exact X5|]. intros ev s' CS. cbn [app]. rewrite <- B3. apply (more s s1 _ r2 ev s' E1 B1 B2 CS).
  - assert (NN : nm <> []) by (destruct NM as (ls & _ & NN & _); exact NN). cbn [app] in H.
    destruct (F_word s A B C (45%N :: nm) R H ltac:(discriminate) ltac:(intros X; injection X as X; destruct nm; [contradiction|discriminate])) as (s1 & E1 & I1 & O1).
    destruct (body_nameless s1 nm nm ltac:(apply I1) O1 (or_introl eq_refl) NM) as (o' & BS).
    destruct (FIN s s1 _ 1 None o' [45%N :: 45%N :: nm] I1 eq_refl ltac:(discriminate)) as (A1 & C1 & r & X1 & X2 & X3 & X4 & X5).
    { eexists. split; [exact E1|]. split; [exact BS|]. split; [discriminate|auto]. }
    eexists _, A1, C1. split; [exact X4|]. split; [exact X5|]. intros ev s' CS. cbn [app].
    pose proof (more s s1 _ r ev s' X1 X2 X3 CS) as Y. rewrite BS in X2. injection X2 as <-. exact Y.
  - assert (NN : nm <> []) by (destruct NM as (ls & _ & NN & _); exact NN). cbn [app] in H.
    destruct (F_word s A B C (45%N :: nm ++ 61%N :: a) R H ltac:(discriminate) ltac:(intros X; injection X as X; destruct nm; [contradiction|discriminate])) as (s1 & E1 & I1 & O1).
    destruct (body_nameless s1 nm (nm ++ 61%N :: a) ltac:(apply I1) O1 (or_intror (ex_intro _ a eq_refl)) NM) as (o' & BS).
    destruct (FIN s s1 _ 1 None o' [45%N :: 45%N :: nm ++ 61%N :: a] I1 eq_refl ltac:(discriminate)) as (A1 & C1 & r & X1 & X2 & X3 & X4 & X5).
    { eexists. split; [exact E1|]. split; [exact BS|]. split; [discriminate|auto]. }
    eexists _, A1, C1. split; [exact X4|]. split; [exact X5|]. intros ev s' CS. cbn [app].
    pose proof (more s s1 _ r ev s' X1 X2 X3 CS) as Y. rewrite BS in X2. injection X2 as <-. exact Y.
  - assert (NN : nm <> []) by (destruct NM as (ls & _ & NN & _); exact NN). cbn [app] in H.
    destruct (F_word s A B C (45%N :: nm) R H ltac:(discriminate) ltac:(intros X; injection X as X; destruct nm; [contradiction|discriminate])) as (s1 & E1 & I1 & O1).
    destruct (body_ambiguous s1 nm nm ltac:(apply I1) O1 (or_introl eq_refl) NM) as (o' & BS).
    destruct (FIN s s1 _ 1 None o' [45%N :: 45%N :: nm] I1 eq_refl ltac:(discriminate)) as (A1 & C1 & r & X1 & X2 & X3 & X4 & X5).
    { eexists. split; [exact E1|]. split; [exact BS|]. split; [discriminate|auto]. }
    eexists _, A1, C1. split; [exact X4|]. split; [exact X5|]. intros ev s' CS. cbn [app].
    pose proof (more s s1 _ r ev s' X1 X2 X3 CS) as Y. rewrite BS in X2. injection X2 as <-. exact Y.
  - assert (NN : nm <> []) by (destruct NM as (ls & _ & NN & _); exact NN). cbn [app] in H.
    destruct (F_word s A B C (45%N :: nm ++ 61%N :: a) R H ltac:(discriminate) ltac:(intros X; injection X as X; destruct nm; [contradiction|discriminate])) as (s1 & E1 & I1 & O1).
    destruct (body_ambiguous s1 nm (nm ++ 61%N :: a) ltac:(apply I1) O1 (or_intror (ex_intro _ a eq_refl)) NM) as (o' & BS).
    destruct (FIN s s1 _ 1 None o' [45%N :: 45%N :: nm ++ 61%N :: a] I1 eq_refl ltac:(discriminate)) as (A1 & C1 & r & X1 & X2 & X3 & X4 & X5).
    { eexists. split; [exact E1|]. split; [exact BS|]. split; [discriminate|auto]. }
    eexists _, A1, C1. split; [exact X4|]. split; [exact X5|]. intros ev s' CS. cbn [app].
    pose proof (more s s1 _ r ev s' X1 X2 X3 CS) as Y. rewrite BS in X2. injection X2 as <-. exact Y.
  - assert (NN : nm <> []) by (destruct NM as (ls & _ & _ & NN & _); exact NN). cbn [app] in H.
    destruct (F_word s A B C (45%N :: nm ++ 61%N :: a) R H ltac:(discriminate) ltac:(intros X; injection X as X; destruct nm; [contradiction|discriminate])) as (s1 & E1 & I1 & O1).
    destruct (body_unwanted s1 nm i o a ltac:(apply I1) O1 NM HS) as (o' & BS).
    destruct (FIN s s1 _ 1 None o' [45%N :: 45%N :: nm ++ 61%N :: a] I1 eq_refl ltac:(discriminate)) as (A1 & C1 & r & X1 & X2 & X3 & X4 & X5).
    { eexists. split; [exact E1|]. split; [exact BS|]. split; [discriminate|auto]. }
    eexists _, A1, C1. split; [exact X4|]. split; [exact X5|]. intros ev s' CS. cbn [app].
    pose proof (more s s1 _ r ev s' X1 X2 X3 CS) as Y. rewrite BS in X2. injection X2 as <-. exact Y.
Qed.
(** An argument missing at the end *)
Lemma missing_ret : exists z, BADARG options = z /\ z <> (-1)%Z /\ missing options = mkE z None None None.
Proof. exists (BADARG options). unfold BADARG, missing. destruct options as [|c r]; [cbn; repeat split; discriminate|]. cbn [hd]. destruct (c =? 58)%N; repeat split; discriminate. Qed.
Lemma body_long_missing s nm i o : place s = 45%N :: nm -> optarg s = None -> named longs nm i o -> o_has o = 1 -> nth_error (argv s) (S (optind s)) = None ->
  exists p, body s = (set_opt s (1 + optind s) [] None p, plain_ret (BADARG options)).
Proof.
  intros P O (ls & LS & E & NN & NI & NE & NV) H NA. unfold body. rewrite LS, P. change (45 =? 45)%N with true. cbv iota.
  destruct (find_named nm i o ls E NE) as (ex & sec & FE & XS).
  unfold parse_long_options. cbn [set_opt place optind optarg argv optopt]. rewrite split_no by auto. rewrite FE, XS, H. cbn [Nat.eqb orb]. cbv iota. rewrite NA.
  destruct missing_ret as (z & -> & NZ & _). cbn [ret plain_ret]. destruct (Z.eqb_spec z (-1)); [contradiction|]. eexists. reflexivity.
Qed.
Lemma F_incomplete s A B C g gev : between s A B C g -> incomplete options longs g gev ->
  exists s1 A1 C1, between s1 A1 B C1 [] /\ A1 ++ C1 = A ++ C ++ g /\ forall ev s', calls F s1 ev s' -> calls F s (gev ++ ev) s'.
Proof.
  intros H G. destruct missing_ret as (z & BA & NZ & ME).
  assert (FIN : forall s0 s2 p w o, inside s2 A B C [w] p -> F s0 = body s2 -> body s2 = (set_opt s2 (1 + optind s2) [] None o, plain_ret z) ->
     exists s1 A1 C1, between s1 A1 B C1 [] /\ A1 ++ C1 = A ++ C ++ [w] /\ forall ev s', calls F s1 ev s' -> calls F s0 (missing options :: ev) s').
  { intros s0 s2 p w o I E1 E2. destruct (advance s2 A B C [w] [] p (set_opt s2 (1 + optind s2) [] None o) I) as (A1 & C1 & BT & EQ); try reflexivity.
    - discriminate.
    - cbn [set_opt optind length]. lia.
    - apply I.
    - eexists _, A1, C1. split; [exact BT|]. split; [exact EQ|]. intros ev s' CS. rewrite ME. exact (more s0 s2 _ _ ev s' E1 E2 NZ CS). }
  destruct G as [cs c FA D|nm i o NM HS].
  - destruct (F_word s A B C (cs ++ [c]) [] H ltac:(destruct cs; discriminate)) as (s1 & E1 & I1 & O1).
    { intros X. destruct cs as [|d r]; cbn [app] in X; [injection X as ->; destruct D as (_ & D & _); apply D; reflexivity|]. injection X as _ X. destruct r; discriminate. }
    destruct (flags_then A B C _ [c] ltac:(discriminate) cs s s1 E1 I1 O1 FA) as (s2 & s3 & E3 & I3 & O3 & K).
    destruct (FIN s2 s3 [c] _ (Z.of_N c) I3 E3) as (s4 & A1 & C1 & X1 & X2 & X3).
    { rewrite (body_short s3 c [] _ ltac:(apply I3) D). destruct I3 as (HA & HO & _). rewrite HA, HO.
      replace (nth_error _ _) with (@None (list N)); [rewrite BA; reflexivity|]. symmetry. apply nth_error_None. rewrite !app_length. unfold pos_of. cbn [length]. lia. }
    exists s4, A1, C1. split; [exact X1|]. split; [exact X2|]. intros ev s' CS. rewrite <- app_assoc. apply K. apply X3. exact CS.
  - assert (NN : nm <> []) by (destruct NM as (ls & _ & _ & NN & _); exact NN).
    destruct (F_word s A B C (45%N :: nm) [] H ltac:(discriminate) ltac:(intros X; injection X as X; contradiction)) as (s1 & E1 & I1 & O1).
    assert (NA : nth_error (argv s1) (S (optind s1)) = None).
    { destruct I1 as (HA & HO & _). rewrite HA, HO. apply nth_error_None. rewrite !app_length. unfold pos_of. cbn [length]. lia. }
    destruct (body_long_missing s1 nm i o ltac:(apply I1) O1 NM HS NA) as (p & BS). rewrite BA in BS.
    destruct (FIN s s1 _ _ p I1 E1 BS) as (s4 & A1 & C1 & X1 & X2 & X3). exists s4, A1, C1. split; [exact X1|]. split; [exact X2|]. exact X3.
Qed.
Lemma F_line ws ev os ps : line options longs ws ev os ps -> forall s A B C, between s A B C ws ->
  exists s', calls F s ev s' /\ argv s' = A ++ C ++ os ++ B ++ ps /\ optind s' = length A + length C + length os.
Proof.
  induction 1 as [|rest|g gev IC|w ws ev os ps OP LN IH|g gev ws ev os ps G LN IH]; intros s A B C BT.
  - destruct (F_end s A B C BT) as (s' & r & E & R & EA & EO). exists s'. split; [eapply C_end; eauto|]. cbn [app length]. rewrite app_nil_r. split; [auto|lia].
  - destruct (F_dashes s A B C rest BT) as (s' & r & E & R & EA & EO). exists s'. split; [eapply C_end; eauto|]. split; [exact EA|exact EO].
  - destruct (F_incomplete s A B C g gev BT IC) as (s1 & A1 & C1 & BT1 & EQ & K). destruct (F_end s1 A1 B C1 BT1) as (s' & r & E & R & EA & EO).
    exists s'. split; [rewrite <- (app_nil_r gev); apply K; eapply C_end; eauto|]. pose proof (f_equal (@length _) EQ) as LE. rewrite !app_length in LE. split; [|lia].
    rewrite EA, app_assoc, EQ, <- !app_assoc, app_nil_r. reflexivity.
  - destruct (F_operand s A B C w ws BT OP) as (s1 & A1 & C1 & E & BT1 & EQ). destruct (IH s1 A1 (B ++ [w]) C1 BT1) as (s' & CS & EA & EO).
    exists s'. split; [|split].
    + inversion CS; subst; [eapply C_end; [rewrite E|]|eapply C_more; [rewrite E| |]]; eauto.
    + rewrite EA. rewrite !app_assoc. rewrite EQ. rewrite <- !app_assoc. reflexivity.
    + rewrite EO. pose proof (f_equal (@length _) EQ) as LE. rewrite !app_length in LE. lia.
  - destruct (F_group s A B C g gev ws BT G) as (s1 & A1 & C1 & BT1 & EQ & K). destruct (IH s1 A1 B C1 BT1) as (s' & CS & EA & EO).
    exists s'. split; [apply K; exact CS|]. split.
    + rewrite EA. rewrite app_assoc. rewrite EQ. rewrite <- !app_assoc. reflexivity.
    + rewrite EO. pose proof (f_equal (@length _) EQ) as LE. rewrite !app_length in LE. rewrite app_length. lia.
Qed.
End parse.

Lemma start prog ws : between (RedGetoptReset (prog :: ws)) [prog] [] [] ws.
Proof. unfold between, RedGetoptReset, pos_of. cbn. repeat split; auto. Qed.
(** permute_args exchanges two blocks of words of any lengths, keeping the order in each *)
Theorem C52_permute : forall A B C R, B <> [] -> C <> [] ->
  permute_args (length A) (length A + length B) (length A + length B + length C) (A ++ B ++ C ++ R) = A ++ C ++ B ++ R.
Proof. exact permute_ok. Qed.
(** Successive calls report exactly the options of the command line, in order; then the options (and "--") stand before the
    operands, both in their original order, and red_optind is the index of the first operand. *)
Theorem C52_getopt : forall options prog ws ev os ps,
  hd 0%N options <> 43%N /\ hd 0%N options <> 45%N -> line options None ws ev os ps ->
  exists s', calls (RedGetopt options) (RedGetoptReset (prog :: ws)) ev s' /\ argv s' = prog :: os ++ ps /\ optind s' = 1 + length os.
Proof. intros options prog ws ev os ps NS LN. destruct (F_line options None NS ws ev os ps LN _ _ _ _ (start prog ws)) as (s' & CS & EA & EO). exists s'. auto. Qed.
Theorem C52_getopt_long : forall options longs prog ws ev os ps,
  hd 0%N options <> 43%N /\ hd 0%N options <> 45%N -> line options (Some longs) ws ev os ps ->
  exists s', calls (RedGetoptLong options longs) (RedGetoptReset (prog :: ws)) ev s' /\ argv s' = prog :: os ++ ps /\ optind s' = 1 + length os.
Proof. intros options longs prog ws ev os ps NS LN. destruct (F_line options (Some longs) NS ws ev os ps LN _ _ _ _ (start prog ws)) as (s' & CS & EA & EO). exists s'. auto. Qed.

(** prog x -ab foo y --dev=1 - -- -z   with the options "ab:c::" and --dev *)
Definition example_longs : list longopt := [mkL [100; 105; 114]%N 0 (Some 7) 1; mkL [100; 101; 118]%N 1 None 68].
Definition example_words : list (list N) :=
  [[120]; [45; 97; 98]; [102; 111; 111]; [121]; [45; 45; 100; 101; 118; 61; 49]; [45]; [45; 45]; [45; 122]]%N.
Example C52_example : line [97; 98; 58; 99; 58; 58]%N (Some example_longs) example_words
  [short_event 97 None; short_event 98 (Some [102; 111; 111]%N); mkE 68 (Some [49%N]) (Some 1) None]
  [[45; 97; 98]; [102; 111; 111]; [45; 45; 100; 101; 118; 61; 49]; [45; 45]]%N
  [[120]; [121]; [45]; [45; 122]]%N.
Proof.
  assert (DA : declares [97; 98; 58; 99; 58; 58]%N 97 NoArg).
  { split; [discriminate|]. split; [discriminate|]. exists [], [98; 58; 99; 58; 58]%N. split; auto. split; [intros []|]. split; [intros (r & X); discriminate|discriminate]. }
  assert (DB : declares [97; 98; 58; 99; 58; 58]%N 98 Required).
  { split; [discriminate|]. split; [discriminate|]. exists [97%N], [58; 99; 58; 58]%N. split; auto. split; [intros [X|[]]; discriminate|].
    exists [99; 58; 58]%N. split; auto. intros (r & X). discriminate. }
  assert (NM : named (Some example_longs) [100; 101; 118]%N 1 (mkL [100; 101; 118]%N 1 None 68)).
  { exists example_longs. split; auto. split; auto. split; [discriminate|]. split; [cbn; intuition discriminate|]. split; [|discriminate].
    left. split; [reflexivity|]. intros [|j] p J P; [injection P as <-; discriminate|lia]. }
  unfold example_words. apply Ln_operand; [right; discriminate|].
  apply (Ln_group _ _ [[45; 97; 98]; [102; 111; 111]]%N [short_event 97 None; short_event 98 (Some [102; 111; 111]%N)]
    [[121]; [45; 45; 100; 101; 118; 61; 49]; [45]; [45; 45]; [45; 122]]%N [mkE 68 (Some [49%N]) (Some 1) None]
    [[45; 45; 100; 101; 118; 61; 49]; [45; 45]]%N [[121]; [45]; [45; 122]]%N).
  { apply (G_separate [97; 98; 58; 99; 58; 58]%N _ [97%N] 98%N [102; 111; 111]%N); [apply Forall_cons; [left; exact DA|apply Forall_nil]|exact DB]. }
  apply Ln_operand; [right; discriminate|].
  apply (Ln_group _ _ [[45; 45; 100; 101; 118; 61; 49]]%N [mkE 68 (Some [49%N]) (Some 1) None] [[45]; [45; 45]; [45; 122]]%N [] [[45; 45]]%N [[45]; [45; 122]]%N).
  { apply (L_equal _ _ [100; 101; 118]%N 1 (mkL [100; 101; 118]%N 1 None 68) [49%N] NM). left. reflexivity. }
  apply Ln_operand; [left; reflexivity|]. apply Ln_dashes.
Qed.
(** --di for --dir, --d is neither *)
Example C52_abbreviation : named (Some example_longs) [100; 105]%N 0 (mkL [100; 105; 114]%N 0 (Some 7) 1) /\ forall i o, ~ named (Some example_longs) [100%N] i o.
Proof.
  split.
  - exists example_longs. split; auto. split; auto. split; [discriminate|]. split; [cbn; intuition discriminate|]. split; [|discriminate].
    right. split; [exists [114%N]; reflexivity|]. intros [|[|j]] p J P; [lia|injection P as <-; discriminate|destruct j; discriminate].
  - intros i o (ls & E & H & _ & _ & [(ON & _)|(_ & NE)] & _); injection E as <-.
    + destruct i as [|[|i]]; [injection H as <-; discriminate|injection H as <-; discriminate|destruct i; discriminate].
    + destruct i as [|[|i]]; [|apply (NE 0 _ ltac:(lia) eq_refl [105; 114]%N); reflexivity|destruct i; discriminate].
      apply (NE 1 _ ltac:(lia) eq_refl [101; 118]%N). reflexivity.
Qed.
(** -!ax with the option "a": "?", 'a', "?" *)
Example C52_unknown : group [97%N] None [[45; 33; 97; 120]%N] [mkE 63 None None None; short_event 97 None; mkE 63 None None None].
Proof.
  assert (DA : declares [97%N] 97 NoArg).
  { split; [discriminate|]. split; [discriminate|]. exists [], []. split; auto. split; [intros []|]. split; [intros (r & X); discriminate|discriminate]. }
  apply (G_flags [97%N] None [33; 97; 120]%N); [discriminate|].
  apply Forall_cons; [right; split; [discriminate|left; intros [X|[]]; discriminate]|].
  apply Forall_cons; [left; exact DA|]. apply Forall_cons; [right; split; [discriminate|left; intros [X|[]]; discriminate]|apply Forall_nil].
Qed.
(** --x and --dir=1 are wrong for example_longs *)
Example C52_bad_long : group [97%N] (Some example_longs) [[45; 45; 120]%N] [mkE 63 None None None] /\
  group [97%N] (Some example_longs) [[45; 45; 100; 105; 114; 61; 49]%N] [mkE 63 None None None].
Proof.
  split.
  - apply (L_unknown _ _ [120%N]). exists example_longs. split; auto. split; [discriminate|]. split; [cbn; intuition discriminate|].
    intros [|[|j]] p P; [injection P as <-; discriminate|injection P as <-; discriminate|destruct j; discriminate].
  - apply (L_unwanted _ _ [100; 105; 114]%N 0 (mkL [100; 105; 114]%N 0 (Some 7) 1) [49%N]); [|reflexivity].
    exists example_longs. split; auto. split; auto. split; [discriminate|]. split; [cbn; intuition discriminate|]. split; [|discriminate].
    left. split; [reflexivity|]. intros j p J. lia.
Qed.
(** --d for --dir or --dev *)
Example C52_ambiguous : group [97%N] (Some example_longs) [[45; 45; 100]%N] [mkE 63 None None None].
Proof.
  apply (L_ambiguous _ _ [100%N]). exists example_longs. split; auto. split; [discriminate|]. split; [cbn; intuition discriminate|]. split.
  - intros [|[|k]] q Q; [injection Q as <-; discriminate|injection Q as <-; discriminate|destruct k; discriminate].
  - exists 0, 1, (mkL [100; 105; 114]%N 0 (Some 7) 1), (mkL [100; 101; 118]%N 1 None 68), [105; 114]%N, [101; 118]%N.
    split; auto. split; auto. split; auto. split; auto. discriminate.
Qed.
(** "x -b" and "--dev" with their arguments missing *)
Example C52_missing : line [58; 98; 58]%N None [[120]; [45; 98]]%N [mkE 58 None None None] [[45; 98]]%N [[120]]%N /\
  line [97%N] (Some example_longs) [[45; 45; 100; 101; 118]%N] [mkE 63 None None None] [[45; 45; 100; 101; 118]%N] [].
Proof.
  split.
  - apply Ln_operand; [right; discriminate|]. apply Ln_incomplete. apply (I_short [58; 98; 58]%N None [] 98%N); [apply Forall_nil|].
    split; [discriminate|]. split; [discriminate|]. exists [58%N], [58%N]. split; auto. split; [intros [X|[]]; discriminate|]. exists []. split; auto. intros (r & X). discriminate.
  - apply Ln_incomplete. apply (I_long [97%N] (Some example_longs) [100; 101; 118]%N 1 (mkL [100; 101; 118]%N 1 None 68)); [|reflexivity].
    exists example_longs. split; auto. split; auto. split; [discriminate|]. split; [cbn; intuition discriminate|]. split; [|discriminate].
    left. split; [reflexivity|]. intros [|j] p J P; [injection P as <-; discriminate|lia].
Qed.
