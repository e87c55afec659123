(** Proofs about the allocation map: exact free counts, allocation finds a free block, and what an
    allocation or a free changes. *)
From Verif Require Import Base Count FsState FsImap.

Section ImapProof.
Variable g : cfg.
Hypothesis OK : cfg_ok g.

(** Specification of the counters (independent of the code). *)
Definition free_blk (s : st) (b : N) : bool := negb (cur s b) && negb (com s b).
Definition afree_blk (s : st) (b : N) : bool := negb (cur s b) && com s b.

Record ImapInv (s : st) : Prop := {
  im_free : m_free (s_w s) = count (free_blk s) (FA g) (BC g);
  im_afree : s_afree s = count (afree_blk s) (FA g) (BC g);
  im_next : FA g < BC g -> FA g <= m_next (s_w s) < BC g }.

(** The state after successfully setting the bit of [b]. *)
Definition bset (b : N) (al : bool) (s : st) : st :=
  let s1 := set_br true (set_w (mset_bits (upd (m_bits (s_w s)) b al) (s_w s)) s) in
  let s2 := if al then s1 else discard_block b s1 in
  if FA g <=? b then
    if al then set_w (mset_free (m_free (s_w s2) - 1) (s_w s2)) s2
    else if com s b then set_afree (s_afree s2 + 1) s2
    else set_w (mset_free (m_free (s_w s2) + 1) (s_w s2)) s2
  else s2.

Lemma com_set_w m s b : com (set_w m s) b = com s b. Proof. reflexivity. Qed.

Ltac bset_tac al s b := unfold bset, discard_block, com, cur; cbn [s_c set_br set_w];
  destruct al; cbn [orb]; destruct (m_bits (s_c s) b), (FA g <=? b); reflexivity.

Lemma bset_cur b al s : cur (bset b al s) = upd (cur s) b al.
Proof. bset_tac al s b. Qed.
Lemma bset_c b al s : s_c (bset b al s) = s_c s.
Proof. bset_tac al s b. Qed.
Lemma bset_com b al s : com (bset b al s) = com s.
Proof. unfold com. now rewrite bset_c. Qed.
Lemma bset_wr b al s : s_wr (bset b al s) = if al || com s b then s_wr s else upd (s_wr s) b true.
Proof. bset_tac al s b. Qed.
Lemma bset_wr_in b al s x : s_wr (bset b al s) x = true -> s_wr s x = true \/ x = b /\ com s b = false.
Proof. rewrite bset_wr. destruct al; cbn [orb]; auto. destruct (com s b); auto. unfold upd. destruct (N.eqb_spec x b); auto. Qed.
Lemma bset_ro b al s : s_ro (bset b al s) = s_ro s.
Proof. bset_tac al s b. Qed.
Lemma bset_res b al s : s_res (bset b al s) = s_res s.
Proof. bset_tac al s b. Qed.
Lemma bset_br b al s : s_br (bset b al s) = true.
Proof. bset_tac al s b. Qed.
Lemma bset_freei b al s : m_freei (s_w (bset b al s)) = m_freei (s_w s).
Proof. bset_tac al s b. Qed.
Lemma bset_next b al s : m_next (s_w (bset b al s)) = m_next (s_w s).
Proof. bset_tac al s b. Qed.
Lemma bset_dk b al s : dk (bset b al s) = if al || com s b then dk s else upd (dk s) b BJunk.
Proof. bset_tac al s b. Qed.
Lemma bset_dk_other b al s x : x <> b -> dk (bset b al s) x = dk s x.
Proof. intros. rewrite bset_dk. destruct (al || com s b); auto. now apply upd_other. Qed.
Lemma bset_dk_alloc b s : dk (bset b true s) = dk s.
Proof. now rewrite bset_dk. Qed.
Lemma bset_free b al s : m_free (s_w (bset b al s)) =
  if FA g <=? b then if al then m_free (s_w s) - 1 else if com s b then m_free (s_w s) else m_free (s_w s) + 1
  else m_free (s_w s).
Proof. bset_tac al s b. Qed.
Lemma bset_afree b al s : s_afree (bset b al s) =
  if FA g <=? b then if al then s_afree s else if com s b then s_afree s + 1 else s_afree s else s_afree s.
Proof. bset_tac al s b. Qed.

Lemma bset_inv b al s :
  ITAB g <= b < BC g -> cur s b = negb al -> (al = true -> FA g <= b -> com s b = false) ->
  ImapInv s -> ImapInv (bset b al s).
Proof.
  intros Hb Hc Hal [I1 I2 I3].
  assert (F : forall x, x <> b -> free_blk (bset b al s) x = free_blk s x).
  { intros. unfold free_blk. rewrite bset_cur, bset_com, upd_other; auto. }
  assert (A : forall x, x <> b -> afree_blk (bset b al s) x = afree_blk s x).
  { intros. unfold afree_blk. rewrite bset_cur, bset_com, upd_other; auto. }
  constructor.
  - rewrite bset_free, I1. destruct (N.leb_spec (FA g) b).
    + pose proof (count_change _ _ (FA g) (BC g) b (conj H (proj2 Hb)) F) as C.
      unfold free_blk in C at 2 4. rewrite bset_cur, bset_com, upd_same, Hc in C.
      destruct al; cbn [negb andb] in C.
      * rewrite Hal in C by auto. cbn in C. lia.
      * destruct (com s b); cbn in C; lia.
    + symmetry. apply count_out with b; auto. lia.
  - rewrite bset_afree, I2. destruct (N.leb_spec (FA g) b).
    + pose proof (count_change _ _ (FA g) (BC g) b (conj H (proj2 Hb)) A) as C.
      unfold afree_blk in C at 2 4. rewrite bset_cur, bset_com, upd_same, Hc in C.
      destruct al; cbn [negb andb] in C.
      * rewrite Hal in C by auto. lia.
      * destruct (com s b); cbn in C; lia.
    + symmetry. apply count_out with b; auto. lia.
  - now rewrite bset_next.
Qed.

Lemma RedImapBlockSet_ok b al s :
  ITAB g <= b < BC g -> cur s b = negb al -> (al = true -> FA g <= b -> com s b = false) ->
  ImapInv s -> RedImapBlockSet g b al s = (Ok tt, bset b al s).
Proof.
  intros Hb Hc Hal [I1 I2 I3]. unfold RedImapBlockSet.
  destruct (N.ltb_spec b (ITAB g)); [lia|]. destruct (N.leb_spec (BC g) b); [lia|]. cbn [orb].
  assert (E : (FA g <=? b) && ((al && (m_free (s_w s) =? 0)) || (negb al && (NALLOC g <=? m_free (s_w s)))) = false).
  { destruct (N.leb_spec (FA g) b); auto. cbn [andb]. rewrite I1. destruct al; cbn [negb andb orb].
    - rewrite orb_false_r. apply N.eqb_neq.
      assert (free_blk s b = true) by (unfold free_blk; rewrite Hc, Hal; auto).
      pose proof (count_pos (free_blk s) (FA g) (BC g) b). lia.
    - apply N.leb_gt. unfold NALLOC. apply count_lt with b; [lia|]. unfold free_blk. now rewrite Hc. }
  rewrite E. unfold RedImapIBlockSet.
  assert (E2 : Bool.eqb (cur s b) al = false) by (rewrite Hc; destruct al; reflexivity).
  rewrite E2. unfold bset, discard_block, com. cbn [s_c set_br set_w].
  destruct (FA g <=? b), al, (m_bits (s_c s) b) eqn:E3; cbn [s_c set_br set_w dk_write set_wr set_dk]; rewrite ?E3; reflexivity.
Qed.

(** Freeing discards at most the contents of [b]. *)
Lemma RedImapBlockGet_ok wk b s : ITAB g <= b < BC g ->
  RedImapBlockGet g wk b s = (Ok (if wk then cur s b else com s b), s).
Proof.
  intros. unfold RedImapBlockGet.
  destruct (N.ltb_spec b (ITAB g)); [lia|]. destruct (N.leb_spec (BC g) b); [lia|]. reflexivity.
Qed.
Lemma RedImapBlockState_ok b s : ITAB g <= b < BC g ->
  RedImapBlockState g b s = (Ok (match cur s b, com s b with
     | true, true => USED | true, false => NEW | false, true => AFREE | false, false => FREE end), s).
Proof.
  intros. unfold RedImapBlockState.
  destruct (N.ltb_spec b (ITAB g)); [lia|]. destruct (N.leb_spec (BC g) b); [lia|]. reflexivity.
Qed.

(** * The scan *)
Definition cyc (b i : N) : N := FA g + (b - FA g + i) mod (BC g - FA g).

Lemma cyc_step b i : FA g <= b < BC g ->
  cyc (if b + 1 =? BC g then FA g else b + 1) i = cyc b (i + 1).
Proof.
  intros. unfold cyc. f_equal. destruct (N.eqb_spec (b + 1) (BC g)).
  - replace (b - FA g + (i + 1)) with (i + 1 * (BC g - FA g)) by lia.
    rewrite N.mod_add by lia. f_equal; lia.
  - f_equal; lia.
Qed.
Lemma cyc_0 b : FA g <= b < BC g -> cyc b 0 = b.
Proof. intros. unfold cyc. rewrite N.add_0_r, N.mod_small by lia. lia. Qed.

Lemma find_free_some n b s x : FA g <= b < BC g -> find_free g n b s = Some x ->
  FA g <= x < BC g /\ cur s x = false /\ com s x = false.
Proof.
  revert b; induction n; intros b Hb H; cbn [find_free] in H; [discriminate|].
  destruct (cur s b) eqn:E1, (com s b) eqn:E2; cbn [negb andb] in H.
  4: { injection H as <-. auto. }
  all: apply IHn in H; auto; destruct (N.eqb_spec (b + 1) (BC g)); lia.
Qed.

Lemma find_free_none n b s : FA g <= b < BC g -> find_free g n b s = None ->
  forall i, i < N.of_nat n -> free_blk s (cyc b i) = false.
Proof.
  revert b; induction n; intros b Hb H i Hi; [lia|]. cbn [find_free] in H.
  destruct (negb (cur s b) && negb (com s b)) eqn:E; [discriminate|].
  destruct (N.eq_dec i 0) as [->|].
  - rewrite cyc_0 by auto. exact E.
  - replace i with (i - 1 + 1) by lia. rewrite <- cyc_step by auto. apply IHn; auto; [|lia].
    destruct (N.eqb_spec (b + 1) (BC g)); lia.
Qed.

Lemma cyc_onto b t : FA g <= b < BC g -> FA g <= t < BC g -> exists i, i < BC g - FA g /\ cyc b i = t.
Proof.
  intros. destruct (N.le_gt_cases b t).
  - exists (t - b). split; [lia|]. unfold cyc. rewrite N.mod_small by lia. lia.
  - exists (t + (BC g - FA g) - b). split; [lia|]. unfold cyc.
    replace (b - FA g + (t + (BC g - FA g) - b)) with (t - FA g + 1 * (BC g - FA g)) by lia.
    rewrite N.mod_add, N.mod_small by lia. lia.
Qed.

Lemma find_free_total b s : FA g <= b < BC g -> 0 < count (free_blk s) (FA g) (BC g) ->
  exists x, find_free g (N.to_nat (NALLOC g)) b s = Some x.
Proof.
  intros Hb H. destruct (find_free g (N.to_nat (NALLOC g)) b s) eqn:E; [eauto|]. exfalso.
  apply count_exists in H as (t & Ht & P).
  destruct (cyc_onto b t Hb Ht) as (i & Hi & <-).
  rewrite (find_free_none _ _ _ Hb E) in P; [discriminate|]. unfold NALLOC. lia.
Qed.

(** * Allocation *)
Definition alloc_st (b : N) (s : st) : st :=
  bset b true (set_w (mset_next (if b + 1 =? BC g then FA g else b + 1) (s_w s)) s).

Lemma set_next_inv nx s : FA g <= nx < BC g -> ImapInv s -> ImapInv (set_w (mset_next nx (s_w s)) s).
Proof. intros H [I1 I2 I3]. constructor; cbn; auto. Qed.

Lemma RedImapAllocBlock_ok s : ImapInv s -> 0 < m_free (s_w s) ->
  exists b, FA g <= b < BC g /\ cur s b = false /\ com s b = false /\
    RedImapAllocBlock g s = (Ok b, alloc_st b s) /\ ImapInv (alloc_st b s).
Proof.
  intros I F. pose proof I as [I1 I2 I3]. unfold RedImapAllocBlock.
  destruct (N.eqb_spec (m_free (s_w s)) 0); [lia|].
  assert (L : FA g < BC g). { rewrite I1 in F. apply count_exists in F as (k & ? & _). lia. }
  specialize (I3 L).
  destruct (N.ltb_spec (m_next (s_w s)) (FA g)); [lia|].
  destruct (N.leb_spec (BC g) (m_next (s_w s))); [lia|]. cbn [orb].
  destruct (find_free_total (m_next (s_w s)) s I3) as (b & E); [lia|].
  rewrite E. apply find_free_some in E as (Hb & C1 & C2); auto.
  exists b. repeat (split; [assumption|]). unfold critical_assert.
  assert (R : ITAB g <= b < BC g) by (unfold FA in Hb; lia).
  set (s1 := set_w _ s).
  assert (I' : ImapInv s1).
  { apply set_next_inv; auto. destruct (N.eqb_spec (b + 1) (BC g)); lia. }
  assert (RS : RedImapBlockSet g b true s1 = (Ok tt, bset b true s1)).
  { apply RedImapBlockSet_ok; auto. }
  rewrite RS. split; [reflexivity|].
  unfold alloc_st. fold s1. apply bset_inv; auto.
Qed.

Lemma RedImapAllocBlock_full s : m_free (s_w s) = 0 -> RedImapAllocBlock g s = (Err ENOSPC, s).
Proof. intros E. unfold RedImapAllocBlock. now rewrite E. Qed.

Lemma alloc_cur b s : cur (alloc_st b s) = upd (cur s) b true.
Proof. unfold alloc_st. now rewrite bset_cur. Qed.
Lemma alloc_c b s : s_c (alloc_st b s) = s_c s.
Proof. unfold alloc_st. now rewrite bset_c. Qed.
Lemma alloc_com b s : com (alloc_st b s) = com s.
Proof. unfold alloc_st. now rewrite bset_com. Qed.
Lemma alloc_wr b s : s_wr (alloc_st b s) = s_wr s.
Proof. unfold alloc_st. now rewrite bset_wr. Qed.
Lemma alloc_dk b s : dk (alloc_st b s) = dk s.
Proof. unfold alloc_st. now rewrite bset_dk_alloc. Qed.
Lemma alloc_ro b s : s_ro (alloc_st b s) = s_ro s.
Proof. unfold alloc_st. now rewrite bset_ro. Qed.
Lemma alloc_res b s : s_res (alloc_st b s) = s_res s.
Proof. unfold alloc_st. now rewrite bset_res. Qed.
Lemma alloc_freei b s : m_freei (s_w (alloc_st b s)) = m_freei (s_w s).
Proof. unfold alloc_st. now rewrite bset_freei. Qed.
Lemma alloc_free b s : FA g <= b -> m_free (s_w (alloc_st b s)) = m_free (s_w s) - 1.
Proof. intros. unfold alloc_st. rewrite bset_free. destruct (N.leb_spec (FA g) b); [reflexivity|lia]. Qed.
End ImapProof.
