(** Lemmas on Getopt.v: permute_args. *)
From Coq Require Import Arith ZArith Lia List.
Import ListNotations.
From Verif Require Import Base Getopt.
Ltac Zify.zify_post_hook ::= idtac.
Open Scope nat_scope.

Lemma gcd_ok : forall k a b, b <> 0 -> b < k -> gcd k a b = Nat.gcd a b.
Proof.
  induction k as [|k IH]; intros a b B K; [lia|]. cbn [gcd]. cbv zeta. pose proof (Nat.mod_upper_bound a b B) as M.
  destruct (Nat.eqb_spec (a mod b) 0) as [E|E].
  - symmetry. rewrite Nat.gcd_comm. apply Nat.divide_gcd_iff'. apply Nat.mod_divide; auto.
  - rewrite IH by lia. rewrite (Nat.gcd_comm b). rewrite Nat.gcd_mod by auto. apply Nat.gcd_comm.
Qed.
Lemma set_len {A} (l : list A) i x : length (set_nth l i x) = length l.
Proof. revert i. induction l as [|y r IH]; intros [|i]; cbn [set_nth length]; auto. Qed.
Lemma set_get {A} (l : list A) i j x d : i < length l -> nth j (set_nth l i x) d = if j =? i then x else nth j l d.
Proof.
  revert i j. induction l as [|y r IH]; intros i j L; cbn [length] in L; [lia|]. destruct i as [|i], j as [|j]; cbn [set_nth nth]; auto. rewrite IH by lia.
  change (S j =? S i) with (j =? i). reflexivity.
Qed.

Section cycle.
Variables (n o : nat).
Hypothesis (ON : 0 < o < n).
Let g := Nat.gcd n o.
Let L := n / g.
Local Lemma g0 : g <> 0. Proof. unfold g. intros E. apply Nat.gcd_eq_0_l in E. lia. Qed.
Local Lemma gn : n = g * L. Proof. unfold L. apply Nat.div_exact; [exact g0|]. apply Nat.mod_divide; [exact g0|]. apply Nat.gcd_divide_l. Qed.
Local Lemma go : exists k, o = g * k /\ Nat.gcd L k = 1.
Proof.
  exists (o / g). split; [apply Nat.div_exact; [exact g0|]; apply Nat.mod_divide; [exact g0|]; apply Nat.gcd_divide_r|].
  apply Nat.gcd_div_gcd; [exact g0|reflexivity].
Qed.
Local Lemma L0 : 0 < L. Proof. pose proof gn. destruct L; lia. Qed.
Definition pj (c j : nat) : nat := (c + j * o) mod n.
Lemma pj_inj c i j : i <= j -> j - i < L -> pj c i = pj c j -> i = j.
Proof.
  unfold pj. intros IJ D E. assert (N0 : n <> 0) by lia.
  assert (X : Nat.divide n ((j - i) * o)).
  { pose proof (Nat.div_mod (c + i * o) n N0) as D1. pose proof (Nat.div_mod (c + j * o) n N0) as D2. rewrite E in D1.
    set (q1 := (c + i * o) / n) in *. set (q2 := (c + j * o) / n) in *. clearbody q1 q2.
    assert (Z1 : (j - i) * o = n * q2 - n * q1) by nia. exists (q2 - q1). nia. }
  destruct go as (k & OK & CO). rewrite gn, OK in X. replace ((j - i) * (g * k)) with (g * (k * (j - i))) in X by lia.
  apply Nat.mul_divide_cancel_l in X; [|exact g0]. apply Nat.gauss in X; [|exact CO].
  destruct (Nat.eq_dec (j - i) 0); [lia|]. apply Nat.divide_pos_le in X; lia.
Qed.
Lemma pj_period c : c < n -> pj c L = c.
Proof.
  intros C. unfold pj. destruct go as (k & OK & _). replace (L * o) with (k * n) by (rewrite gn, OK at 1; lia).
  rewrite Nat.mod_add by lia. apply Nat.mod_small; auto.
Qed.
Lemma pj_class c j : pj c j mod g = c mod g.
Proof.
  unfold pj. pose proof g0 as G0. pose proof L0 as LP. destruct go as (k & OK & _).
  pose proof (Nat.div_mod (c + j * o) n ltac:(lia)) as D. set (q := (c + j * o) / n) in *. set (r := (c + j * o) mod n) in *. clearbody q r.
  transitivity ((c + j * o) mod g).
  - rewrite D. replace (n * q + r) with (r + (L * q) * g) by (rewrite gn at 1; lia). rewrite Nat.mod_add by auto. reflexivity.
  - replace (c + j * o) with (c + (j * k) * g) by (rewrite OK; lia). apply Nat.mod_add; auto.
Qed.
Lemma pj_surj c q : c < n -> q < n -> q mod g = c mod g -> exists j, j < L /\ q = pj c j.
Proof.
  intros C Q M. pose proof g0 as G0. pose proof L0 as LP. destruct go as (k & OK & CO).
  assert (K0 : 0 < k) by (destruct k; lia).
  destruct (Nat.gcd_bezout_pos k L K0) as (a & b & E). rewrite Nat.gcd_comm, CO in E.
  pose proof (Nat.div_mod q g G0) as DQ. pose proof (Nat.div_mod c g G0) as DC. rewrite M in DQ. pose proof gn as GN.
  set (x := q / g) in *. set (y := c / g) in *. set (r := c mod g) in *. clearbody x y r. clearbody L. clearbody g.
  assert (YL : y <= L) by nia.
  assert (T : q + n - c = g * (x + L - y)). { rewrite GN. replace (g * (x + L - y)) with (g * x + g * L - g * y) by (rewrite Nat.mul_sub_distr_l; lia). lia. }
  set (t := x + L - y) in *. clearbody t.
  pose proof (Nat.div_mod (t * a) L ltac:(lia)) as DJ. pose proof (Nat.mod_upper_bound (t * a) L ltac:(lia)) as JL.
  set (j := (t * a) mod L) in *. set (s := t * a / L) in *. clearbody j s.
  exists j. split; auto. unfold pj.
  assert (EQ : c + j * o + (s * k) * n = q + (1 + t * b) * n).
  { assert (X1 : t * a * o = (q + n - c) + (t * b) * n).
    { rewrite T, OK. replace (t * a * (g * k)) with (t * g * (a * k)) by lia. rewrite E. rewrite GN. lia. }
    rewrite DJ in X1. assert (X2 : (L * s + j) * o = s * k * n + j * o) by (rewrite OK, GN; lia). rewrite X2 in X1. lia. }
  rewrite <- (Nat.mod_add (c + j * o) (s * k) n) by lia. rewrite EQ. rewrite Nat.mod_add by lia. symmetry. apply Nat.mod_small. exact Q.
Qed.
End cycle.

(** One cycle: the elements at the positions c, c + o, c + 2 o, ... (modulo n) move one step on *)
Section perm.
Variables (start nn o : nat).
Hypothesis (N1 : 0 < nn) (O1 : 0 < o).
Let n := nn + o.
Let g := Nat.gcd n o.
Let L := n / g.
Let mid := start + nn.
Local Lemma on : 0 < o < n. Proof. unfold n. lia. Qed.
Definition at' (l : list (list N)) (q : nat) := nth (start + q) l [].
Local Lemma next p : p < n -> (if mid <=? start + p then start + p - nn else start + p + o) = start + (p + o) mod n.
Proof.
  intros P. unfold mid. destruct (Nat.leb_spec (start + nn) (start + p)) as [X|X].
  - replace (p + o) with (p - nn + 1 * n) by (unfold n in *; lia). rewrite Nat.mod_add by (unfold n; lia). rewrite Nat.mod_small by lia. lia.
  - rewrite Nat.mod_small by (unfold n in *; lia). lia.
Qed.
Lemma pj_S c j : (pj n o c j + o) mod n = pj n o c (S j).
Proof. unfold pj. rewrite Nat.add_mod_idemp_l by (unfold n; lia). f_equal. lia. Qed.
(** after i turns (i < L), with k turns left *)
Lemma cycle_ok f c : c < n -> start + n <= length f -> forall k i l, i + k = L -> i < L -> length l = length f ->
  (forall q, q < length f -> (q < start \/ start + n <= q) -> nth q l [] = nth q f []) ->
  (forall j, 1 <= j -> j <= i -> at' l (pj n o c j) = at' f (pj n o c (j - 1))) ->
  at' l c = at' f (pj n o c i) ->
  (forall q, q < n -> (forall j, j <= i -> q <> pj n o c j) -> at' l q = at' f q) ->
  let r := cycle k (start + pj n o c i) (start + c) mid nn o l in
  length r = length f /\
  (forall q, q < length f -> (q < start \/ start + n <= q) -> nth q r [] = nth q f []) /\
  (forall j, 1 <= j -> j <= L -> at' r (pj n o c j) = at' f (pj n o c (j - 1))) /\
  (forall q, q < n -> (forall j, j < L -> q <> pj n o c j) -> at' r q = at' f q).
Proof.
  intros C LF. induction k as [|k IH]; intros i l IK IL LL OUT DONE CUR REST; [lia|]. cbn [cycle]. cbv zeta.
  assert (PB : forall j, pj n o c j < n) by (intros j; unfold pj; apply Nat.mod_upper_bound; unfold n; lia).
  rewrite (next _ (PB i)), pj_S. set (p := pj n o c (S i)).
  assert (PL : start + p < length l) by (pose proof (PB (S i)) as H; fold p in H; lia).
  assert (CL : start + c < length l) by lia.
  set (l2 := set_nth (set_nth l (start + p) (nth (start + c) l [])) (start + c) (nth (start + p) l [])).
  assert (L2 : length l2 = length f) by (unfold l2; rewrite !set_len; auto).
  assert (GET : forall q, nth q l2 [] = if q =? start + c then nth (start + p) l [] else if q =? start + p then nth (start + c) l [] else nth q l []).
  { intros q. unfold l2. rewrite set_get by (rewrite set_len; lia). destruct (q =? start + c); auto. apply set_get. lia. }
  assert (INJ : forall j j', j < L -> j' < L -> pj n o c j = pj n o c j' -> j = j').
  { intros j j' J J' E. destruct (Nat.le_ge_cases j j').
    - apply (pj_inj n o on c); auto. fold g L. lia.
    - symmetry. apply (pj_inj n o on c); auto. fold g L. lia. }
  assert (C0 : pj n o c 0 = c) by (unfold pj; cbn [Nat.mul]; rewrite Nat.add_0_r; apply Nat.mod_small; auto).
  assert (OUT2 : forall q, q < length f -> (q < start \/ start + n <= q) -> nth q l2 [] = nth q f []).
  { intros q Q OQ. rewrite GET. pose proof (PB (S i)) as PB1. fold p in PB1. destruct (Nat.eqb_spec q (start + c)); [lia|]. destruct (Nat.eqb_spec q (start + p)); [lia|]. auto. }
  destruct (Nat.eq_dec (S i) L) as [E|E].
  - (* the last turn: p = c, nothing changes *)
    assert (PC : p = c) by (unfold p; rewrite E; apply (pj_period n o on); auto).
    assert (k = 0) by lia. subst k. cbn [cycle]. split; auto. split; auto. split.
    + intros j J1 J2. unfold at'. rewrite GET, PC. destruct (Nat.eq_dec j L) as [->|JL].
      * rewrite (pj_period n o on c C : pj n o c L = c). rewrite Nat.eqb_refl. fold (at' l c). rewrite CUR. replace (L - 1) with i by lia. reflexivity.
      * destruct (Nat.eqb_spec (start + pj n o c j) (start + c)) as [X|X].
        -- assert (j = 0) by (apply INJ; try lia; rewrite C0; lia). lia.
        -- fold (at' l (pj n o c j)). rewrite DONE by lia. reflexivity.
    + intros q Q NQ. unfold at'. rewrite GET, PC. destruct (Nat.eqb_spec (start + q) (start + c)) as [X|X].
      * exfalso. apply (NQ 0); [lia|]. rewrite C0. lia.
      * fold (at' l q). rewrite REST; auto. intros j J. apply NQ. lia.
  - assert (PC : p <> c). { intros X. rewrite <- C0 in X. apply INJ in X; lia. }
    apply (IH (S i) l2); auto; try lia.
    + intros j J1 J2. unfold at'. rewrite GET. destruct (Nat.eqb_spec (start + pj n o c j) (start + c)) as [X|X].
      { assert (j = 0) by (apply INJ; try lia; rewrite C0; lia). lia. }
      destruct (Nat.eq_dec j (S i)) as [->|JI].
      * fold p. rewrite Nat.eqb_refl. fold (at' l c). rewrite CUR. replace (S i - 1) with i by lia. reflexivity.
      * destruct (Nat.eqb_spec (start + pj n o c j) (start + p)) as [Y|Y].
        { assert (j = S i) by (apply INJ; try lia; fold p; lia). lia. }
        fold (at' l (pj n o c j)). apply DONE; lia.
    + unfold at'. rewrite GET. rewrite Nat.eqb_refl. fold (at' l p). apply REST; [apply PB|]. intros j J X. apply INJ in X; lia.
    + intros q Q NQ. unfold at'. rewrite GET. destruct (Nat.eqb_spec (start + q) (start + c)) as [X|X].
      * exfalso. apply (NQ 0); [lia|]. rewrite C0. lia.
      * destruct (Nat.eqb_spec (start + q) (start + p)) as [Y|Y]; [exfalso; apply (NQ (S i)); [lia|fold p; lia]|].
        fold (at' l q). apply REST; auto.
Qed.
(** A whole cycle, by positions *)
Lemma cycle_pos f c : c < n -> start + n <= length f ->
  let r := cycle L (start + c) (start + c) mid nn o f in
  length r = length f /\ (forall q, q < length f -> (q < start \/ start + n <= q) -> nth q r [] = nth q f []) /\
  (forall q, q < n -> at' r q = if q mod g =? c mod g then at' f ((q + nn) mod n) else at' f q).
Proof.
  intros C LF. assert (C0 : pj n o c 0 = c) by (unfold pj; cbn [Nat.mul]; rewrite Nat.add_0_r; apply Nat.mod_small; auto).
  pose proof (cycle_ok f c C LF L 0 f eq_refl (L0 n o on) eq_refl (fun q _ _ => eq_refl) ltac:(lia) ltac:(rewrite C0; reflexivity) (fun q _ _ => eq_refl)) as H.
  cbv zeta in H. rewrite C0 in H. destruct H as (H1 & H2 & H3 & H4). cbv zeta. split; auto. split; auto. intros q Q.
  destruct (Nat.eqb_spec (q mod g) (c mod g)) as [E|E].
  - destruct (pj_surj n o on c q C Q E) as (j & J & ->). fold g L in J.
    assert (X : (pj n o c j + nn) mod n = pj n o c (if j =? 0 then L - 1 else j - 1)).
    { assert (ST : forall m, (pj n o c (S m) + nn) mod n = pj n o c m).
      { intros m. unfold pj. rewrite Nat.add_mod_idemp_l by (unfold n; lia). replace (c + S m * o + nn) with (c + m * o + 1 * n) by (unfold n; lia). apply Nat.mod_add. unfold n. lia. }
      destruct (Nat.eqb_spec j 0) as [->|J0].
      - rewrite C0. rewrite <- (pj_period n o on c C) at 1. fold g L. pose proof (L0 n o on) as LP. fold g L in LP. replace L with (S (L - 1)) at 1 by lia. apply ST.
      - replace j with (S (j - 1)) at 1 by lia. apply ST. }
    rewrite X. destruct (Nat.eqb_spec j 0) as [->|J0].
    + pose proof (H3 L ltac:(lia) ltac:(lia)) as Y. rewrite (pj_period n o on c C : pj n o c L = c) in Y. rewrite C0. exact Y.
    + apply H3; lia.
  - apply H4; auto. intros j J X. apply E. rewrite X. apply (pj_class n o on).
Qed.
Lemma cycles_pos f : start + n <= length f -> forall k i l, i + k = g -> length l = length f ->
  (forall q, q < length f -> (q < start \/ start + n <= q) -> nth q l [] = nth q f []) ->
  (forall q, q < n -> at' l q = if q mod g <? i then at' f ((q + nn) mod n) else at' f q) ->
  let r := cycles k i L mid nn o l in
  length r = length f /\ (forall q, q < length f -> (q < start \/ start + n <= q) -> nth q r [] = nth q f []) /\
  (forall q, q < n -> at' r q = at' f ((q + nn) mod n)).
Proof.
  intros LF. assert (G0 : g <> 0) by exact (g0 n o on).
  assert (GO : exists a, o = a * g) by (destruct (Nat.gcd_divide_r n o) as (a & E); exists a; exact E).
  assert (GN : exists a, nn = a * g).
  { destruct GO as (a & E). destruct (Nat.gcd_divide_l n o) as (b & E2). fold g in E2. exists (b - a). unfold n in E2. rewrite Nat.mul_sub_distr_r. lia. }
  induction k as [|k IH]; intros i l IK LL OUT AT; cbn [cycles]; cbv zeta.
  - split; auto. split; auto. intros q Q. rewrite AT by auto. destruct (Nat.ltb_spec (q mod g) i) as [|X]; auto.
    exfalso. pose proof (Nat.mod_upper_bound q g G0). lia.
  - assert (IO : i < o) by (destruct GO as (a & E); destruct a; [lia|]; nia).
    replace (mid + i) with (start + (nn + i)) by (unfold mid; lia).
    destruct (cycle_pos l (nn + i) ltac:(unfold n; lia) ltac:(lia)) as (H1 & H2 & H3).
    assert (CM : (nn + i) mod g = i). { destruct GN as (a & E). rewrite E, Nat.add_comm, Nat.mod_add by auto. apply Nat.mod_small. lia. }
    rewrite CM in H3. apply IH; try lia.
    + intros q Q OQ. rewrite H2 by (auto; lia). auto.
    + intros q Q. rewrite H3 by auto. destruct (Nat.eqb_spec (q mod g) i) as [E|E].
      * destruct (Nat.ltb_spec (q mod g) (S i)); [|lia]. rewrite AT by (apply Nat.mod_upper_bound; unfold n; lia).
        replace (((q + nn) mod n) mod g) with (q mod g).
        { rewrite E, Nat.ltb_irrefl. reflexivity. }
        pose proof (Nat.div_mod (q + nn) n ltac:(unfold n; lia)) as D. set (x := (q + nn) / n) in *. set (y := (q + nn) mod n) in *. clearbody x y.
        destruct GN as (a & EN). destruct GO as (b & EO).
        transitivity ((q + nn) mod g); [rewrite EN; symmetry; apply Nat.mod_add; auto|].
        rewrite D. replace (n * x + y) with (y + ((a + b) * x) * g) by (unfold n; rewrite EN, EO; lia). apply Nat.mod_add; auto.
      * rewrite AT by auto. destruct (Nat.ltb_spec (q mod g) i), (Nat.ltb_spec (q mod g) (S i)); auto; lia.
Qed.
End perm.
Lemma nth_part {A} (a b : list A) i d : nth (length a + i) (a ++ b) d = nth i b d.
Proof. rewrite app_nth2 by lia. f_equal. lia. Qed.
(** permute_args exchanges the two blocks *)
Lemma permute_ok A B C R : B <> [] -> C <> [] ->
  permute_args (length A) (length A + length B) (length A + length B + length C) (A ++ B ++ C ++ R) = A ++ C ++ B ++ R.
Proof.
  intros NB NC. assert (LB : 0 < length B) by (destruct B; [congruence|cbn [length]; lia]). assert (LC : 0 < length C) by (destruct C; [congruence|cbn [length]; lia]).
  unfold permute_args. cbv zeta. replace (length A + length B - length A) with (length B) by lia.
  replace (length A + length B + length C - (length A + length B)) with (length C) by lia.
  replace (length A + length B + length C - length A) with (length B + length C) by lia.
  rewrite gcd_ok by lia.
  assert (GE : Nat.gcd (length B) (length C) = Nat.gcd (length B + length C) (length C)).
  { rewrite (Nat.gcd_comm (length B + length C)). rewrite Nat.gcd_add_diag_r. apply Nat.gcd_comm. }
  rewrite GE. set (f := A ++ B ++ C ++ R).
  assert (LF : length A + (length B + length C) <= length f) by (unfold f; rewrite !app_length; lia).
  destruct (cycles_pos (length A) (length B) (length C) LB LC f LF (Nat.gcd (length B + length C) (length C)) 0 f eq_refl eq_refl (fun q _ _ => eq_refl)) as (H1 & H2 & H3).
  { intros q Q. destruct (Nat.ltb_spec (q mod Nat.gcd (length B + length C) (length C)) 0); [lia|reflexivity]. }
  cbv zeta in H1, H2, H3. set (r := cycles _ 0 _ _ _ _ f) in *. clearbody r.
  apply (nth_ext _ _ [] []); [rewrite H1; unfold f; rewrite !app_length; lia|]. intros q Q. rewrite H1 in Q.
  destruct (Nat.lt_ge_cases q (length A)) as [X|X].
  { rewrite H2 by (auto; lia). unfold f. rewrite !app_nth1 by auto. reflexivity. }
  destruct (Nat.le_gt_cases (length A + (length B + length C)) q) as [Y|Y].
  { rewrite H2 by (auto; lia). unfold f. rewrite !(app_nth2 A) by lia. rewrite (app_nth2 B), (app_nth2 C) by lia. rewrite (app_nth2 C), (app_nth2 B) by lia. f_equal. lia. }
  set (p := q - length A). replace q with (length A + p) by (unfold p; lia). assert (P : p < length B + length C) by (unfold p; lia).
  fold (at' (length A) r p). rewrite H3 by auto. unfold at', f. rewrite !nth_part.
  destruct (Nat.lt_ge_cases p (length C)) as [Z|Z].
  - rewrite Nat.mod_small by lia. rewrite (Nat.add_comm p), nth_part. rewrite !app_nth1 by auto. reflexivity.
  - replace (p + length B) with (p - length C + 1 * (length B + length C)) by lia. rewrite Nat.mod_add by lia. rewrite Nat.mod_small by lia.
    rewrite (app_nth1 B) by lia. rewrite (app_nth2 C) by lia. rewrite app_nth1 by lia. reflexivity.
Qed.
