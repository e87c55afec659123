(** Counting the indices of an interval that satisfy a predicate. *)
From Verif Require Import Base.

Fixpoint cnt (p : N -> bool) (n : nat) (b : N) : N :=
  match n with O => 0 | S k => (if p b then 1 else 0) + cnt p k (b + 1) end.
Definition count (p : N -> bool) (lo hi : N) : N := cnt p (N.to_nat (hi - lo)) lo.

Lemma cnt_ext p q n b : (forall x, b <= x < b + N.of_nat n -> p x = q x) -> cnt p n b = cnt q n b.
Proof.
  revert b; induction n; intros b H; cbn [cnt]; auto.
  rewrite (H b) by lia. rewrite (IHn (b + 1)); auto. intros; apply H; lia.
Qed.
Lemma count_ext p q lo hi : (forall x, lo <= x < hi -> p x = q x) -> count p lo hi = count q lo hi.
Proof. intros. apply cnt_ext. intros; apply H; lia. Qed.

Lemma cnt_le p n b : cnt p n b <= N.of_nat n.
Proof. revert b; induction n; intros b; cbn [cnt]; [lia|]. specialize (IHn (b + 1)). destruct (p b); lia. Qed.
Lemma count_le p lo hi : count p lo hi <= hi - lo.
Proof. unfold count. pose proof (cnt_le p (N.to_nat (hi - lo)) lo). lia. Qed.

(** Changing the predicate at one point of the interval. *)
Lemma cnt_change p q n b k :
  b <= k < b + N.of_nat n -> (forall x, x <> k -> p x = q x) ->
  cnt p n b + (if q k then 1 else 0) = cnt q n b + (if p k then 1 else 0).
Proof.
  revert b; induction n; intros b Hk H; [lia|]. cbn [cnt].
  destruct (N.eq_dec b k) as [->|D].
  - rewrite (cnt_ext p q n (k + 1)); [lia|]. intros; apply H; lia.
  - specialize (IHn (b + 1)). rewrite (H b) by auto. assert (b + 1 <= k < b + 1 + N.of_nat n) by lia.
    specialize (IHn H0 H). lia.
Qed.
Lemma count_change p q lo hi k :
  lo <= k < hi -> (forall x, x <> k -> p x = q x) ->
  count p lo hi + (if q k then 1 else 0) = count q lo hi + (if p k then 1 else 0).
Proof. intros. unfold count. apply cnt_change; auto; lia. Qed.
Lemma count_out p q lo hi k :
  ~ (lo <= k < hi) -> (forall x, x <> k -> p x = q x) -> count p lo hi = count q lo hi.
Proof. intros. apply count_ext. intros; apply H0; lia. Qed.

Lemma cnt_pos p n b k : b <= k < b + N.of_nat n -> p k = true -> 0 < cnt p n b.
Proof.
  revert b; induction n; intros b Hk H; [lia|]. cbn [cnt].
  destruct (N.eq_dec b k) as [->|D].
  - rewrite H. lia.
  - specialize (IHn (b + 1)). assert (b + 1 <= k < b + 1 + N.of_nat n) by lia. specialize (IHn H0 H). lia.
Qed.
Lemma count_pos p lo hi k : lo <= k < hi -> p k = true -> 0 < count p lo hi.
Proof. intros. apply cnt_pos with k; auto; lia. Qed.

Lemma cnt_exists p n b : 0 < cnt p n b -> exists k, b <= k < b + N.of_nat n /\ p k = true.
Proof.
  revert b; induction n; intros b H; cbn [cnt] in H; [lia|].
  destruct (p b) eqn:E.
  - exists b; split; auto; lia.
  - destruct (IHn (b + 1)) as (k & Hk & P); [lia|]. exists k; split; auto; lia.
Qed.
Lemma count_exists p lo hi : 0 < count p lo hi -> exists k, lo <= k < hi /\ p k = true.
Proof. intros H. apply cnt_exists in H as (k & Hk & P). exists k; split; auto; lia. Qed.

Lemma cnt_app p n m b : cnt p (n + m) b = cnt p n b + cnt p m (b + N.of_nat n).
Proof.
  revert b; induction n; intros b; cbn [cnt Nat.add].
  - rewrite N.add_0_r. lia.
  - rewrite IHn. replace (b + 1 + N.of_nat n) with (b + N.of_nat (S n)) by lia. lia.
Qed.
Lemma count_split p lo mid hi : lo <= mid <= hi -> count p lo hi = count p lo mid + count p mid hi.
Proof.
  intros. unfold count. replace (N.to_nat (hi - lo)) with (N.to_nat (mid - lo) + N.to_nat (hi - mid))%nat by lia.
  rewrite cnt_app. f_equal. f_equal. lia.
Qed.
Lemma count_0 p lo hi : (forall x, lo <= x < hi -> p x = false) -> count p lo hi = 0.
Proof.
  intros. destruct (N.eq_dec (count p lo hi) 0); auto.
  destruct (count_exists p lo hi) as (k & Hk & P); [lia|]. rewrite H in P by auto. discriminate.
Qed.
Lemma count_0_inv p lo hi x : count p lo hi = 0 -> lo <= x < hi -> p x = false.
Proof.
  intros. destruct (p x) eqn:E; auto. pose proof (count_pos p lo hi x H0 E). lia.
Qed.
Lemma cnt_full p n b : cnt p n b = N.of_nat n -> forall x, b <= x < b + N.of_nat n -> p x = true.
Proof.
  revert b; induction n; intros b H x Hx; [lia|]. cbn [cnt] in H.
  pose proof (cnt_le p n (b + 1)). destruct (p b) eqn:E; [|lia].
  destruct (N.eq_dec x b) as [->|]; auto. apply (IHn (b + 1)); lia.
Qed.
Lemma count_lt p lo hi k : lo <= k < hi -> p k = false -> count p lo hi < hi - lo.
Proof.
  intros. pose proof (count_le p lo hi). destruct (N.eq_dec (count p lo hi) (hi - lo)); [|lia].
  unfold count in e. rewrite (cnt_full p (N.to_nat (hi - lo)) lo) in H0; [discriminate| |]; lia.
Qed.
Lemma cnt_all p n b : (forall x, b <= x < b + N.of_nat n -> p x = true) -> cnt p n b = N.of_nat n.
Proof.
  revert b; induction n; intros b H; cbn [cnt]; auto. rewrite H by lia.
  rewrite IHn; [lia|]. intros; apply H; lia.
Qed.
Lemma count_all p lo hi : (forall x, lo <= x < hi -> p x = true) -> count p lo hi = hi - lo.
Proof. intros. unfold count. rewrite cnt_all; [lia|]. intros; apply H; lia. Qed.

Lemma cnt_change_in p q n b k :
  b <= k < b + N.of_nat n -> (forall x, b <= x < b + N.of_nat n -> x <> k -> p x = q x) ->
  cnt p n b + (if q k then 1 else 0) = cnt q n b + (if p k then 1 else 0).
Proof.
  intros Hk H. rewrite <- (cnt_ext (fun x => if x =? k then p k else q x) p).
  - rewrite (cnt_change (fun x => if x =? k then p k else q x) q n b k Hk).
    + now rewrite N.eqb_refl.
    + intros x Hx. destruct (N.eqb_spec x k); congruence.
  - intros x Hx. destruct (N.eqb_spec x k); [congruence|]. symmetry. auto.
Qed.
Lemma count_change_in p q lo hi k :
  lo <= k < hi -> (forall x, lo <= x < hi -> x <> k -> p x = q x) ->
  count p lo hi + (if q k then 1 else 0) = count q lo hi + (if p k then 1 else 0).
Proof. intros. unfold count. apply cnt_change_in; [lia|]. intros; apply H0; lia. Qed.
