(** C40: metadata nodes survive the trip to the disk and back in both byte orders, and anything else is
    rejected.  C39: a volume mounts only with the configuration it was formatted with. *)
From Verif Require Import Base Endian Crc Cache Metaroot MetaSpec MetarootP Node NodeP NodeSpec.
Ltac Zify.zify_post_hook ::= idtac.

(* ------------------------------------------------------------------ *)
(** * Layout *)
Lemma slots_app a : forall off b, slots off (a ++ b) = slots off a ++ slots (off + total a) b.
Proof.
  induction a as [|w a IH]; intros; cbn [app slots total fold_right]; [now rewrite Nat.add_0_r|].
  rewrite IH. cbn [app]. f_equal. f_equal. f_equal. fold (total a). lia.
Qed.
Lemma slots_words n : forall off, slots off (repeat 4%nat n) = words off n.
Proof.
  induction n; intros; [reflexivity|]. cbn [repeat slots]. rewrite IHn.
  unfold words. cbn [List.seq map]. f_equal; [f_equal; lia|]. rewrite <- seq_shift, map_map.
  apply map_ext. intros. f_equal. lia.
Qed.
Lemma slots_bytes n : forall off o w, In (o, w) (slots off (repeat 1%nat n)) -> w = 1%nat /\ (off <= o < off + n)%nat.
Proof.
  induction n; intros off o w H; [destruct H|]. cbn [repeat slots] in H. destruct H as [H|H].
  - injection H as <- <-. lia.
  - apply IHn in H. lia.
Qed.
(** a slot is converted, or is a byte which is left alone *)
Definition covered (fs : list member) (f : nat * nat) : Prop :=
  In f fs \/ snd f = 1%nat /\ forall g, In g fs -> inside g (fst f) = false.
Lemma src_none fs i : (forall g, In g fs -> inside g i = false) -> src fs i = i.
Proof. induction fs; intros H; cbn [src]; auto. rewrite H by (now left). apply IHfs. intros; apply H. now right. Qed.

Section C40.
Variable BS : nat.
Variable lc : lconf.
Variable swap : bool.
Hypothesis HB : (48 <= BS)%nat.
Notation SW := (BufferEndianSwap BS lc swap).
Notation seal := (node_seal BS lc swap).
Notation load := (node_load BS lc swap).

Lemma inode_entries : (16 + total (l_inode_head lc) = ino_entries lc)%nat.
Proof. unfold l_inode_head, ino_entries, ino_pinode, ino_mode, ino_times. destruct (lc_blocks lc), (lc_times lc), (lc_posix lc), (lc_link lc); reflexivity. Qed.
Lemma layout_covered t f : is_meta t = true -> In f (layout BS lc t) -> covered (node_members BS lc t) f.
Proof.
  unfold layout. intros M H. rewrite slots_app in H. apply in_app_or in H. destruct H as [H|H].
  { left. destruct t; try discriminate M; cbn [node_members]; try (apply in_or_app; left); exact H. }
  change (0 + total l_header)%nat with 16%nat in H.
  destruct t; try discriminate M; cbn [node_members].
  - unfold l_master in H. rewrite !slots_app in H. change (total [4%nat]) with 4%nat in H. change (total (repeat 1%nat 8)) with 8%nat in H.
    change (total [4; 4; 4; 2; 2; 2; 1; 1]%nat) with 20%nat in H. cbn [Nat.add] in H.
    rewrite !in_app_iff in H. destruct H as [H|[H|[H|H]]].
    + left. destruct H as [<-|[]]. cbn; tauto.
    + right. destruct f as [o w]. apply slots_bytes in H. destruct H as [-> H]. split; auto.
      intros g G. apply inside_false. cbn [fst] in *.
      cbn in G. decompose [or] G; subst; try contradiction; cbn [fst snd]; lia.
    + cbn in H. decompose [or] H; clear H; subst; try contradiction; cbn [fst snd];
        try (left; cbn; tauto);
        (right; split; [reflexivity|]; intros g G; apply inside_false; cbn in G; decompose [or] G; subst; try contradiction; cbn [fst snd]; lia).
    + right. destruct f as [o w]. apply slots_bytes in H. destruct H as [-> H]. split; auto.
      intros g G. apply inside_false. cbn [fst] in *.
      cbn in G. decompose [or] G; subst; try contradiction; cbn [fst snd]; lia.
  - right. destruct f as [o w]. apply slots_bytes in H. destruct H as [-> H]. split; auto.
    intros g G. apply inside_false. cbn [fst]. cbn in G. decompose [or] G; subst; try contradiction; cbn [fst snd]; lia.
  - unfold l_inode in H. rewrite slots_app, slots_words, inode_entries in H. apply in_app_or in H. destruct H as [H|H].
    + assert (W : forall g n off, In g (words off n) -> (off <= fst g)%nat).
      { intros g n off G. unfold words in G. apply in_map_iff in G. destruct G as (k & <- & _). cbn. lia. }
      unfold covered. rewrite in_app_iff. unfold inode_members. rewrite !in_app_iff.
      assert (X : (In f ([(16%nat, 8%nat)] ++ (if lc_blocks lc then [(ino_blocks, 4%nat)] else [])
             ++ (if lc_times lc then [(ino_times lc, 4%nat); ((ino_times lc + 4)%nat, 4%nat); ((ino_times lc + 8)%nat, 4%nat)] else [])
             ++ [(ino_mode lc, 2%nat)] ++ (if lc_posix lc && lc_link lc then [((ino_mode lc + 2)%nat, 2%nat)] else [])
             ++ (if lc_posix lc then [(ino_pinode lc, 4%nat)] else []))) \/
             (lc_posix lc && lc_link lc = false /\ snd f = 1%nat /\ (ino_mode lc + 2 <= fst f < ino_mode lc + 4)%nat)).
      { unfold ino_pinode, ino_mode, ino_times, ino_blocks in *. unfold l_inode_head in H.
        destruct (lc_blocks lc), (lc_times lc), (lc_posix lc), (lc_link lc); cbn in H |- *;
        decompose [or] H; subst; try contradiction; cbn [fst snd]; try (left; tauto); right; (split; [reflexivity|]); split; try reflexivity; lia. }
      destruct X as [X|(E & X1 & X2)].
      * left. rewrite !in_app_iff in X. tauto.
      * right. split; auto. intros g G. apply inside_false. rewrite in_app_iff in G. destruct G as [G|G].
        { cbn in G. unfold ino_mode, ino_times in X2. decompose [or] G; subst; try contradiction; cbn [fst snd]; lia. }
        rewrite !in_app_iff in G. unfold ino_pinode, ino_entries, ino_mode, ino_times, ino_blocks in *.
        destruct G as [G|[G|[G|[G|[G|[G|G]]]]]].
        -- destruct G as [<-|[]]; cbn [fst snd]; lia.
        -- destruct (lc_blocks lc); [|destruct G]. destruct G as [<-|[]]; cbn [fst snd]; lia.
        -- destruct (lc_times lc); [|destruct G]. cbn [In] in G. decompose [or] G; subst; try contradiction; cbn [fst snd]; lia.
        -- destruct G as [<-|[]]; cbn [fst snd]; lia.
        -- rewrite E in G. destruct G.
        -- destruct (lc_posix lc); [|destruct G]. destruct G as [<-|[]]; unfold ino_pinode; cbn [fst snd]; unfold ino_mode, ino_times; lia.
        -- apply W in G. unfold ino_entries, ino_pinode, ino_mode, ino_times in G. lia.
    + left. apply in_or_app; right. unfold inode_members. rewrite !in_app_iff. tauto.
  - left. cbn [l_indir slots] in H. unfold l_indir in H. cbn [slots] in H. rewrite slots_words in H. apply in_or_app; right. exact H.
  - left. unfold l_indir in H. cbn [slots] in H. rewrite slots_words in H. apply in_or_app; right. exact H.
Qed.
Lemma total_cons w r : total (w :: r) = (w + total r)%nat.
Proof. reflexivity. Qed.
Lemma slots_bound ws : forall off o w, In (o, w) (slots off ws) -> (off <= o /\ o + w <= off + total ws)%nat.
Proof.
  induction ws as [|v ws IH]; intros off o w H; [destruct H|]. rewrite total_cons. cbn [slots] in H. destruct H as [H|H].
  - injection H as <- <-. lia.
  - apply IH in H. lia.
Qed.
Lemma covered_at t x o w : is_meta t = true -> bytes_ok x -> length x = BS -> (o + w <= BS)%nat -> covered (node_members BS lc t) (o, w) ->
  at_ (SW t x) o w = if swap then rev (at_ x o w) else at_ x o w.
Proof.
  intros M B L O C. destruct (sw_facts BS lc swap HB t x M B L) as (L1 & B1 & N1).
  change at_ with getb. assert (LG : length (getb x o w) = w) by (apply length_getb; lia).
  apply list_eq. { destruct swap; rewrite ?rev_length, !length_getb; lia. }
  rewrite length_getb by lia. intros i Hi. rewrite nth_getb, N1 by lia. unfold from.
  destruct swap; [|now rewrite nth_getb by lia].
  rewrite rev_nth by lia. rewrite LG, nth_getb by lia. f_equal.
  destruct C as [C|[C1 C2]].
  - rewrite (src_member _ (o, w) _ _ (o + i) (node_chain_all BS lc HB t M)) by (auto; cbn [fst snd]; lia). cbn [fst snd]. lia.
  - cbn [fst snd] in *. subst w. rewrite src_none; [lia|]. intros g G. replace (o + i)%nat with o by lia. auto.
Qed.
Lemma layout_bound t o w : is_meta t = true -> In (o, w) (layout BS lc t) -> (o + w <= BS)%nat.
Proof.
  intros M H. destruct (layout_covered t _ M H) as [C|[C _]].
  - destruct (chain_in _ _ _ _ (node_chain_all BS lc HB t M) C) as [X _]. cbn in X. lia.
  - cbn in C. subst w. unfold layout in H. apply slots_bound in H. destruct H as [_ H]. etransitivity; [exact H|]. clear H.
    assert (TR : forall v n, total (repeat v n) = (v * n)%nat).
    { intros v n. induction n; cbn [repeat]; [cbn; lia|]. rewrite total_cons, IHn. lia. }
    assert (TA : forall a b, total (a ++ b) = (total a + total b)%nat).
    { intros a b. induction a; cbn [app]; [reflexivity|]. rewrite !total_cons, IHa. lia. }
    rewrite TA. change (total l_header) with 16%nat.
    destruct t; try discriminate M.
    + unfold l_master. rewrite !TA, !TR. change (total [4%nat]) with 4%nat. change (total [4; 4; 4; 2; 2; 2; 1; 1]%nat) with 20%nat. lia.
    + unfold l_imap. rewrite TR. lia.
    + unfold l_inode. rewrite TA, TR. pose proof (div4 (BS - (16 + total (l_inode_head lc)))). pose proof inode_entries.
      assert (ino_entries lc <= 48)%nat.
      { unfold ino_entries, ino_pinode, ino_mode, ino_times. destruct (lc_blocks lc), (lc_times lc), (lc_posix lc); lia. }
      lia.
    + unfold l_indir. rewrite total_cons, TR. pose proof (div4 (BS - 20)). lia.
    + unfold l_indir. rewrite total_cons, TR. pose proof (div4 (BS - 20)). lia.
Qed.

(* ------------------------------------------------------------------ *)
(** * Nodes *)
Lemma of_le_inj a b : bytes_ok a -> bytes_ok b -> length a = length b -> of_le_bytes a = of_le_bytes b -> a = b.
Proof. intros A B L E. rewrite <- (le_bytes_of_le a A), <- (le_bytes_of_le b B), L. now rewrite E. Qed.
Lemma letters_facts t : is_meta t = true -> bytes_ok (letters t) /\ length (letters t) = 4%nat /\ of_le_bytes (letters t) = sig_of t.
Proof. destruct t; intros M; try discriminate M; (split; [repeat constructor|]; split; reflexivity). Qed.
Lemma sig_letters big t x : is_meta t = true -> bytes_ok x -> length x = BS ->
  (fld big x 0 4 = sig_of t <-> at_ x 0 4 = (if big then rev (letters t) else letters t)).
Proof.
  intros M B L. destruct (letters_facts t M) as (LB & LL & LE). unfold fld.
  assert (BA : bytes_ok (at_ x 0 4)) by (now apply bytes_getb).
  assert (LA : length (at_ x 0 4) = 4%nat) by (apply length_getb; lia).
  destruct big.
  - split; intros H.
    + rewrite <- (rev_involutive (at_ x 0 4)). f_equal. apply of_le_inj; auto; [now apply rev_bytes_ok|rewrite rev_length; lia|congruence].
    + rewrite H, rev_involutive. exact LE.
  - split; intros H; [|rewrite H; exact LE]. apply of_le_inj; auto; [lia|congruence].
Qed.
(** When a block read from the disk is accepted as a node, for any contents of the block. *)
Theorem C40_accept mnt vseq t x : is_meta t = true -> bytes_ok x -> length x = BS ->
  (exists y, load mnt vseq t x = Ok y) <-> node_ok swap t x /\ (mnt = true -> fld swap x 8 8 < vseq).
Proof.
  intros M B L. unfold node_load, node_ok. pose proof (load_spec BS swap HB mnt vseq t x M B L) as S.
  rewrite (sig_letters swap t x M B L) in S.
  destruct (node_valid swap mnt vseq t x).
  - destruct S as [S _]. specialize (S eq_refl). split; [tauto|eauto].
  - split; [intros [y H]; discriminate|]. intros H. destruct S as [_ S]. discriminate S. tauto.
Qed.
Theorem C40_reject mnt vseq t x e : load mnt vseq t x = Err e -> e = EIO.
Proof. unfold node_load. destruct (node_valid swap mnt vseq t x); intros H; congruence. Qed.

(** The members of an accepted node have in memory the values they have on disk. *)
Theorem C40_members mnt vseq t x y o w : is_meta t = true -> bytes_ok x -> length x = BS ->
  load mnt vseq t x = Ok y -> length y = BS /\
  (In (o, w) (layout BS lc t) -> fld false y o w = fld swap x o w).
Proof.
  unfold node_load. intros M B L H. destruct (node_valid swap mnt vseq t x); [|discriminate]. injection H as <-.
  split; [now apply (sw_facts BS lc swap HB)|]. intros I. unfold fld. rewrite covered_at by (eauto using layout_bound, layout_covered).
  destruct swap; auto.
Qed.
(** ... and a node about to be written gets on disk the values its members have in memory, with a valid
    header and the sequence number it is given. *)
Theorem C40_written t q x o w : is_meta t = true -> bytes_ok x -> length x = BS -> q <= UINT64_MAX ->
  let y := seal t q x in
  length y = BS /\ bytes_ok y /\ node_ok swap t y /\ fld swap y 8 8 = q /\
  (In (o, w) (layout BS lc t) -> (16 <= o)%nat -> fld swap y o w = fld false x o w).
Proof.
  intros M B L Q y. destruct (seal_facts BS lc swap HB t q x M B L Q) as (L1 & B1 & F0 & F8 & F4 & S). fold y in L1, B1, F0, F8, F4, S.
  split; auto. split; auto. split; [split; auto; now apply sig_letters|]. split; auto. intros I O.
  assert (A : fld false (SW t y) o w = fld swap y o w).
  { unfold fld. rewrite covered_at by (eauto using layout_bound, layout_covered). destruct swap; auto. }
  rewrite <- A. apply fld_at. unfold at_. rewrite (skipn_more (SW t y) 16 o), (skipn_more x 16 o) by lia. now rewrite S.
Qed.
(** The round trip: what was written is accepted, with the same body and the sequence number given. *)
Theorem C40_roundtrip mnt vseq t q x : is_meta t = true -> bytes_ok x -> length x = BS -> q <= UINT64_MAX ->
  (mnt = true -> q < vseq) ->
  exists y, load mnt vseq t (seal t q x) = Ok y /\ skipn 16 y = skipn 16 x /\ fld false y 8 8 = q.
Proof.
  intros M B L Q V. destruct (seal_facts BS lc swap HB t q x M B L Q) as (L1 & B1 & F0 & F8 & F4 & S).
  set (y := seal t q x) in *. exists (SW t y). unfold node_load.
  rewrite (proj2 (load_spec BS swap HB mnt vseq t y M B1 L1)) by (rewrite F8; auto). split; auto. split; auto.
  rewrite (proj2 (sw_fld BS lc swap HB t y 8 8 M B1 L1 ltac:(cbn; auto))). exact F8.
Qed.
(** A node is never taken for one of another type ... *)
Theorem C40_type mnt vseq t u q x : is_meta t = true -> is_meta u = true -> t <> u ->
  bytes_ok x -> length x = BS -> q <= UINT64_MAX ->
  load mnt vseq u (seal t q x) = Err EIO.
Proof.
  intros M U NE B L Q. destruct (seal_facts BS lc swap HB t q x M B L Q) as (L1 & B1 & F0 & _).
  unfold node_load. destruct (node_valid swap mnt vseq u (seal t q x)) eqn:V; auto. exfalso.
  apply (load_spec BS swap HB) in V; auto. destruct V as [V _]. rewrite F0 in V.
  destruct t, u; try discriminate; try contradiction.
Qed.
(** ... nor for one with a sequence number not yet reached ... *)
Theorem C40_future vseq t q x : is_meta t = true -> bytes_ok x -> length x = BS -> q <= UINT64_MAX -> vseq <= q ->
  load true vseq t (seal t q x) = Err EIO.
Proof.
  intros M B L Q V. destruct (seal_facts BS lc swap HB t q x M B L Q) as (L1 & B1 & F0 & F8 & _).
  unfold node_load. destruct (node_valid swap true vseq t (seal t q x)) eqn:E; auto. exfalso.
  apply (load_spec BS swap HB) in E; auto. destruct E as (_ & _ & E). specialize (E eq_refl). lia.
Qed.
(** ... nor, if up to 32 consecutive bits of it were changed, outside the checksum, for a valid one
    of whatever type ... *)
Theorem C40_corruption mnt vseq t u x y p : is_meta t = true -> is_meta u = true ->
  length x = BS -> length y = BS -> bytes_ok x -> bytes_ok y -> node_ok swap t x -> x <> y ->
  (forall k, k < p \/ p + 32 <= k -> buf_bit x k = buf_bit y k) -> at_ x 4 4 = at_ y 4 4 ->
  (u = t \/ at_ x 0 4 = at_ y 0 4) ->
  load mnt vseq u y = Err EIO.
Proof.
  intros M U LX LY BX BY [SX CX] NE W E4 ST.
  destruct (load mnt vseq u y) as [z|e] eqn:H; [exfalso|f_equal; eapply C40_reject; eauto].
  destruct (proj1 (C40_accept mnt vseq u y U BY LY) (ex_intro _ z H)) as [[SY CY] _].
  assert (S4 : at_ x 0 4 = at_ y 0 4) by (destruct ST as [->|]; auto; now rewrite SX, SY).
  assert (C : checksum (skipn 8 x) = checksum (skipn 8 y)) by (rewrite <- CX, <- CY; now apply fld_at).
  destruct (list_eq_dec N.eq_dec (skipn 8 x) (skipn 8 y)) as [EQ|NEQ].
  - apply NE. rewrite <- (firstn_skipn 8 x), <- (firstn_skipn 8 y), EQ. f_equal.
    change (firstn 8 x) with (at_ x 0 8). change (firstn 8 y) with (at_ y 0 8).
    apply list_eq; [change at_ with getb; rewrite !length_getb; lia|]. change at_ with getb. rewrite length_getb by lia. intros i Hi. rewrite !nth_getb by lia. cbn [Nat.add].
    destruct (Nat.lt_ge_cases i 4).
    + change at_ with getb in S4. pose proof (nth_getb x 0 4 i ltac:(lia)) as X. pose proof (nth_getb y 0 4 i ltac:(lia)) as Y.
      cbn [Nat.add] in X, Y. rewrite <- X, <- Y. now rewrite S4.
    + change at_ with getb in E4. pose proof (nth_getb x 4 4 (i - 4) ltac:(lia)) as X. pose proof (nth_getb y 4 4 (i - 4) ltac:(lia)) as Y.
      replace (4 + (i - 4))%nat with i in X, Y by lia. rewrite <- X, <- Y. now rewrite E4.
  - revert C. apply (crc_burst 0 _ _ (p - 64)); auto.
    + now apply Forall_skipn.
    + now apply Forall_skipn.
    + rewrite !skipn_length; lia.
    + intros k Hk. specialize (W (k + 8 * 8) ltac:(lia)). unfold buf_bit, nthN in *.
      rewrite N.div_add, N.mod_add in W by discriminate.
      rewrite !nth_skipn. replace (N.to_nat (k / 8 + 8)) with (8 + N.to_nat (k / 8))%nat in W by lia. exact W.
Qed.
(** ... nor if only its checksum was changed. *)
Theorem C40_corruption_crc mnt vseq t x y : is_meta t = true ->
  length x = BS -> length y = BS -> bytes_ok x -> bytes_ok y -> node_ok swap t x -> x <> y ->
  (forall i, ~ (4 <= i < 8)%nat -> nth i x 0 = nth i y 0) ->
  load mnt vseq t y = Err EIO.
Proof.
  intros M LX LY BX BY [SX CX] NE W.
  destruct (load mnt vseq t y) as [z|e] eqn:H; [exfalso|f_equal; eapply C40_reject; eauto].
  destruct (proj1 (C40_accept mnt vseq t y M BY LY) (ex_intro _ z H)) as [[SY CY] _].
  assert (E8 : skipn 8 x = skipn 8 y) by (apply skipn_nth; [lia|]; intros; apply W; lia).
  rewrite E8, <- CY in CX.
  assert (E4 : at_ x 4 4 = at_ y 4 4).
  { unfold fld in CX. assert (BA : bytes_ok (at_ x 4 4)) by (now apply bytes_getb). assert (BB : bytes_ok (at_ y 4 4)) by (now apply bytes_getb).
    assert (LA : length (at_ x 4 4) = 4%nat) by (apply length_getb; lia). assert (LB : length (at_ y 4 4) = 4%nat) by (apply length_getb; lia).
    destruct swap.
    - apply of_le_inj in CX; try (now apply rev_bytes_ok); [|rewrite !rev_length; lia]. apply (f_equal (@rev N)) in CX. now rewrite !rev_involutive in CX.
    - apply of_le_inj in CX; auto. lia. }
  apply NE, list_eq; [lia|]. intros i _. destruct (Nat.lt_ge_cases i 4); [apply W; lia|]. destruct (Nat.lt_ge_cases i 8); [|apply W; lia].
  change at_ with getb in E4. pose proof (nth_getb x 4 4 (i - 4) ltac:(lia)) as X. pose proof (nth_getb y 4 4 (i - 4) ltac:(lia)) as Y.
  replace (4 + (i - 4))%nat with i in X, Y by lia. rewrite <- X, <- Y. now rewrite E4.
Qed.
End C40.

(** A node in the other byte order is not accepted as a node of any type. *)
Theorem C40_order BS lc swap mnt vseq t u q x : (48 <= BS)%nat -> is_meta t = true -> is_meta u = true ->
  bytes_ok x -> length x = BS -> q <= UINT64_MAX ->
  node_load BS lc (negb swap) mnt vseq u (node_seal BS lc swap t q x) = Err EIO.
Proof.
  intros HB M U B L Q. destruct (C40_written BS lc swap HB t q x 0 0 M B L Q) as (L1 & B1 & [F _] & _).
  destruct (node_load BS lc (negb swap) mnt vseq u (node_seal BS lc swap t q x)) as [z|e] eqn:H; [exfalso|f_equal; eapply C40_reject; eauto].
  destruct (proj1 (C40_accept BS lc (negb swap) HB mnt vseq u _ U B1 L1) (ex_intro _ z H)) as [[F' _] _].
  rewrite F in F'. destruct swap, t, u; discriminate.
Qed.
(** The byte order in memory agrees with that of Cache.v (C09), which assumes no conversion. *)
Theorem C40_cache_model BS lc t q x : (48 <= BS)%nat -> is_meta t = true -> bytes_ok x -> length x = BS -> q <= UINT64_MAX ->
  node_seal BS lc false t q x = stamp t q x.
Proof.
  intros HB M B L Q. unfold node_seal, stamp. cbn [BufferEndianSwap w32].
  set (y := le_bytes 4 (sig_of t) ++ firstn 4 (skipn 4 x) ++ le_bytes 8 q ++ skipn 16 x).
  assert (E : put64 (put32 x 0 (sig_of t)) 8 q = y).
  { unfold put64, put32. unfold y.
    assert (L4 : length (firstn 4 (skipn 4 x)) = 4%nat) by (apply (length_getb x 4 4); lia).
    assert (E0 : putb x 0 (le_bytes 4 (sig_of t)) = le_bytes 4 (sig_of t) ++ skipn 4 x).
    { unfold putb. rewrite le4. reflexivity. }
    rewrite E0. unfold putb. rewrite le8.
    assert (F : firstn 8 (le_bytes 4 (sig_of t) ++ skipn 4 x) = le_bytes 4 (sig_of t) ++ firstn 4 (skipn 4 x)).
    { rewrite firstn_app, le4. f_equal. }
    rewrite F, <- app_assoc. do 2 f_equal. 
    rewrite skipn_app, le4. rewrite skipn_all2 by (rewrite le4; lia). cbn [app]. change (8 + 8 - 4)%nat with 12%nat.
    now rewrite (skipn_more x 4 16) by lia. }
  unfold BufferEndianSwap. rewrite E. unfold put32, putb. rewrite le4. unfold crc_node, RedCrcNode, crc32, checksum. reflexivity.
Qed.

(* ------------------------------------------------------------------ *)
(** * C39: the configuration of a volume *)
Lemma get16_put16 x off v : (off + 2 <= length x)%nat -> v < 2 ^ 16 -> get16 (put16 x off v) off = v.
Proof.
  intros L V. unfold get16, put16. pose proof (le_bytes_length 2 v) as LL.
  change (getb (putb x off (le_bytes 2 v)) off 2) with (getb (putb x off (le_bytes 2 v)) off (length (le_bytes 2 v))).
  rewrite getb_same by lia. apply of_le_bytes_le. exact V.
Qed.
(** the bytes 16..47 of a master block say what configuration it was formatted with *)
Definition mb_says (c : mconf) (x : list N) : Prop :=
  fld false x 16 4 = 1 /\ fld false x 32 4 = mc_inodes c /\ fld false x 36 4 = mc_blocks c
  /\ fld false x 40 2 = mc_name c /\ fld false x 42 2 = mc_direct c /\ fld false x 44 2 = mc_indirect c
  /\ nth 46 x 0 = mc_bsp2 c /\ nth 47 x 0 = mb_flags c.
Lemma flags_lt c : mb_flags c < 256.
Proof. unfold mb_flags. destruct (mc_posix c), (mc_times c), (mc_iblocks c), (mc_link c); reflexivity. Qed.
Lemma flags_facts c : has (mb_flags c) 1 = mc_posix c /\ has (mb_flags c) 2 = mc_times c
  /\ has (mb_flags c) 4 = mc_iblocks c /\ has (mb_flags c) 8 = mc_posix c && mc_link c.
Proof. unfold mb_flags. destruct (mc_posix c), (mc_times c), (mc_iblocks c), (mc_link c); repeat split; reflexivity. Qed.
Lemma format_says BS c build time : (48 <= BS)%nat -> conf_ok c -> length build = 8%nat -> bytes_ok build ->
  let x := format_master BS c build time in length x = BS /\ bytes_ok x /\ mb_says c x.
Proof.
  intros HB (C1 & C2 & C3 & C4 & C5 & C6) LB BB. unfold format_master.
  pose proof (le_bytes_length 2) as LE2.
  set (x0 := repeat 0 BS). assert (L0 : length x0 = BS) by apply repeat_length.
  assert (B0 : bytes_ok x0). { apply bytes_nth. intros. unfold x0. rewrite nth_repeat. lia. }
  set (x1 := put32 x0 16 _). assert (L1 : length x1 = BS) by (unfold x1, put32; rewrite length_putb; rewrite ?le4; lia).
  assert (B1 : bytes_ok x1) by (apply bytes_putb; auto using le_bytes_ok).
  set (x2 := putb x1 20 _). assert (L2 : length x2 = BS) by (unfold x2; rewrite length_putb; lia).
  assert (B2 : bytes_ok x2) by (apply bytes_putb; auto).
  set (x3 := put32 x2 28 _). assert (L3 : length x3 = BS) by (unfold x3, put32; rewrite length_putb; rewrite ?le4; lia).
  assert (B3 : bytes_ok x3) by (apply bytes_putb; auto using le_bytes_ok).
  set (x4 := put32 x3 32 _). assert (L4 : length x4 = BS) by (unfold x4, put32; rewrite length_putb; rewrite ?le4; lia).
  assert (B4 : bytes_ok x4) by (apply bytes_putb; auto using le_bytes_ok).
  set (x5 := put32 x4 36 _). assert (L5 : length x5 = BS) by (unfold x5, put32; rewrite length_putb; rewrite ?le4; lia).
  assert (B5 : bytes_ok x5) by (apply bytes_putb; auto using le_bytes_ok).
  set (x6 := put16 x5 40 _). assert (L6 : length x6 = BS) by (unfold x6, put16; rewrite length_putb; rewrite ?LE2; lia).
  assert (B6 : bytes_ok x6) by (apply bytes_putb; auto using le_bytes_ok).
  set (x7 := put16 x6 42 _). assert (L7 : length x7 = BS) by (unfold x7, put16; rewrite length_putb; rewrite ?LE2; lia).
  assert (B7 : bytes_ok x7) by (apply bytes_putb; auto using le_bytes_ok).
  set (x8 := put16 x7 44 _). assert (L8 : length x8 = BS) by (unfold x8, put16; rewrite length_putb; rewrite ?LE2; lia).
  assert (B8 : bytes_ok x8) by (apply bytes_putb; auto using le_bytes_ok).
  set (x9 := putb x8 46 _). assert (L9 : length x9 = BS) by (unfold x9; rewrite length_putb; cbn [length]; lia).
  assert (B9 : bytes_ok x9) by (apply bytes_putb; auto; repeat constructor; auto).
  cbv zeta. set (x10 := putb x9 47 _). assert (L10 : length x10 = BS) by (unfold x10; rewrite length_putb; cbn [length]; lia).
  assert (B10 : bytes_ok x10) by (apply bytes_putb; auto; repeat constructor; apply flags_lt).
  split; auto. split; auto. unfold mb_says.
  assert (P10 : forall o n, (o + n <= 47)%nat -> fld false x10 o n = fld false x9 o n) by (intros; unfold x10; apply fld_other; cbn [length]; lia).
  assert (P9 : forall o n, (o + n <= 46)%nat -> fld false x9 o n = fld false x8 o n) by (intros; unfold x9; apply fld_other; cbn [length]; lia).
  assert (P8 : forall o n, (o + n <= 44)%nat -> fld false x8 o n = fld false x7 o n) by (intros; unfold x8, put16; apply fld_other; rewrite ?LE2; lia).
  assert (P7 : forall o n, (o + n <= 42)%nat -> fld false x7 o n = fld false x6 o n) by (intros; unfold x7, put16; apply fld_other; rewrite ?LE2; lia).
  assert (P6 : forall o n, (o + n <= 40)%nat -> fld false x6 o n = fld false x5 o n) by (intros; unfold x6, put16; apply fld_other; rewrite ?LE2; lia).
  assert (P5 : forall o n, (o + n <= 36)%nat -> fld false x5 o n = fld false x4 o n) by (intros; unfold x5, put32; apply fld_other; rewrite ?le4; lia).
  assert (P4 : forall o n, (o + n <= 32)%nat -> fld false x4 o n = fld false x3 o n) by (intros; unfold x4, put32; apply fld_other; rewrite ?le4; lia).
  assert (P3 : forall o n, (o + n <= 28)%nat -> fld false x3 o n = fld false x2 o n) by (intros; unfold x3, put32; apply fld_other; rewrite ?le4; lia).
  assert (P2 : forall o n, (o + n <= 20)%nat -> fld false x2 o n = fld false x1 o n) by (intros; unfold x2; apply fld_other; rewrite ?LB; lia).
  split. { rewrite P10, P9, P8, P7, P6, P5, P4, P3, P2 by lia. apply (get32_put32 x0 16); [lia|reflexivity]. }
  split. { rewrite P10, P9, P8, P7, P6, P5 by lia. apply (get32_put32 x3 32); [lia|auto]. }
  split. { rewrite P10, P9, P8, P7, P6 by lia. apply (get32_put32 x4 36); [lia|auto]. }
  split. { rewrite P10, P9, P8, P7 by lia. apply (get16_put16 x5 40); [lia|auto]. }
  split. { rewrite P10, P9, P8 by lia. apply (get16_put16 x6 42); [lia|auto]. }
  split. { rewrite P10, P9 by lia. apply (get16_put16 x7 44); [lia|auto]. }
  split.
  - unfold x10. rewrite nth_putb by (cbn [length]; lia). cbn [length Nat.add Nat.leb Nat.ltb andb]. unfold x9. rewrite nth_putb by (cbn [length]; lia). reflexivity.
  - unfold x10. rewrite nth_putb by (cbn [length]; lia). reflexivity.
Qed.
Lemma eqbN_dec a b : negb (a =? b) = false <-> a = b.
Proof. rewrite negb_false_iff. apply N.eqb_eq. Qed.
Lemma eqbB_dec a b : negb (Bool.eqb a b) = false <-> a = b.
Proof. rewrite negb_false_iff. apply Bool.eqb_true_iff. Qed.
Lemma master_says a b x : mb_says a x ->
  (compatible a b -> RedVolMountMaster b x = Ok (fld false x 8 8)) /\ (~ compatible a b -> RedVolMountMaster b x = Err EIO).
Proof.
  intros (S1 & S2 & S3 & S4 & S5 & S6 & S7 & S8). unfold RedVolMountMaster.
  change (get32 x 16) with (fld false x 16 4). change (get32 x 32) with (fld false x 32 4). change (get32 x 36) with (fld false x 36 4).
  change (get16 x 40) with (fld false x 40 2). change (get16 x 42) with (fld false x 42 2). change (get16 x 44) with (fld false x 44 2).
  change (get64 x o_seq) with (fld false x 8 8).
  rewrite S1, S2, S3, S4, S5, S6, S7, S8. destruct (flags_facts a) as (-> & -> & -> & ->).
  match goal with |- (_ -> (if ?c then _ else _) = _) /\ _ => set (cond := c) end.
  assert (K : cond = false <-> mc_inodes a = mc_inodes b /\ mc_blocks a = mc_blocks b /\ mc_name a = mc_name b
    /\ mc_direct a = mc_direct b /\ mc_indirect a = mc_indirect b /\ mc_bsp2 a = mc_bsp2 b
    /\ mc_posix a = mc_posix b /\ mc_times a = mc_times b /\ mc_iblocks a = mc_iblocks b).
  { unfold cond. rewrite !orb_false_iff, !eqbN_dec, !eqbB_dec. unfold RED_DISK_LAYOUT_VERSION. intuition. }
  unfold compatible. split.
  - intros (H1 & H2 & H3 & H4 & H5 & H6 & H7 & H8 & H9 & H10). rewrite (proj2 K) by tauto. rewrite <- H7.
    destruct (mc_posix a) eqn:P; cbn [andb]; auto. rewrite H10 by auto. now rewrite Bool.eqb_reflx.
  - intros NC. destruct cond eqn:C; auto. destruct K as [K _]. specialize (K eq_refl).
    destruct K as (H1 & H2 & H3 & H4 & H5 & H6 & H7 & H8 & H9). rewrite <- H7.
    destruct (mc_posix a) eqn:P; cbn [andb].
    + destruct (Bool.eqb (mc_link a) (mc_link b)) eqn:E; cbn [negb]; auto. apply Bool.eqb_prop in E. exfalso. apply NC. tauto.
    + exfalso. apply NC. repeat (split; [assumption|]). discriminate.
Qed.
(** The driver configured as [b] mounts the volume formatted with configuration [a] if and only if
    the two agree about everything that affects the format; otherwise mounting fails with RED_EIO. *)
Theorem C39_config BS lc swap a b build time q mnt vseq :
  (48 <= BS)%nat -> conf_ok a -> length build = 8%nat -> bytes_ok build -> q <= UINT64_MAX -> (mnt = true -> q < vseq) ->
  let r := mount_master BS lc swap mnt vseq b (master_written BS lc swap a build time q) in
  (compatible a b -> r = Ok q) /\ (~ compatible a b -> r = Err EIO).
Proof.
  intros HB CA LB BB Q V r. unfold r, mount_master, master_written.
  destruct (format_says BS a build time HB CA LB BB) as (L & B & S). set (x := format_master BS a build time) in *.
  destruct (C40_roundtrip BS lc swap HB mnt vseq TMaster q x eq_refl B L Q V) as (y & -> & SK & Q8).
  assert (LY : forall o n, (16 <= o)%nat -> fld false y o n = fld false x o n).
  { intros o n O. apply fld_at. unfold at_. rewrite (skipn_more y 16 o), (skipn_more x 16 o) by lia. now rewrite SK. }
  assert (NY : forall i, (16 <= i)%nat -> nth i y 0 = nth i x 0).
  { intros i I. replace i with (16 + (i - 16))%nat by lia. rewrite <- !nth_skipn. now rewrite SK. }
  destruct (master_says a b y) as [X Y].
  { unfold mb_says. rewrite !LY, !NY by lia. exact S. }
  rewrite Q8 in X. auto.
Qed.
(** Whatever else a block contains, and whatever the block size of the volume: if its bytes 16 to 47 are
    those of a volume formatted with configuration [a], it does not mount with an incompatible one. *)
Theorem C39_incompatible BS BS' lc lc' swap a b build time q mnt vseq x r :
  (48 <= BS)%nat -> (48 <= BS')%nat -> conf_ok a -> length build = 8%nat -> bytes_ok build -> q <= UINT64_MAX ->
  bytes_ok x -> length x = BS' ->
  at_ x 16 32 = at_ (master_written BS lc swap a build time q) 16 32 -> ~ compatible a b ->
  mount_master BS' lc' swap mnt vseq b x = r -> r = Err EIO.
Proof.
  intros HB HB' CA LB BB Q BX LX E NC R. subst r. unfold mount_master.
  destruct (node_load BS' lc' swap mnt vseq TMaster x) as [y|e] eqn:LD.
  2:{ apply C40_reject in LD. now subst e. }
  destruct (format_says BS a build time HB CA LB BB) as (L & B & S). unfold master_written in E. set (z := format_master BS a build time) in *.
  assert (F : forall o w, In (o, w) (layout BS lc TMaster) -> In (o, w) (layout BS' lc' TMaster) -> (16 <= o)%nat -> (o + w <= 48)%nat ->
     fld false y o w = fld false z o w).
  { intros o w I I' O O'. destruct (C40_members BS' lc' swap HB' mnt vseq TMaster x y o w eq_refl BX LX LD) as [_ M]. rewrite M by auto.
    destruct (C40_written BS lc swap HB TMaster q z o w eq_refl B L Q) as (L1 & B1 & _ & _ & W). rewrite <- W by auto.
    apply fld_at. unfold at_ in *.
    assert (X : forall u : list N, firstn w (skipn o u) = firstn w (skipn (o - 16) (firstn 32 (skipn 16 u)))).
    { intros u. rewrite skipn_firstn_comm, firstn_firstn, Nat.min_l by lia. now rewrite (skipn_more u 16 o) by lia. }
    rewrite (X x), E, <- X. reflexivity. }
  assert (I : forall n k l, In (k, l) [(16, 4); (32, 4); (36, 4); (40, 2); (42, 2); (44, 2); (46, 1); (47, 1)]%nat -> In (k, l) (layout n lc TMaster) /\ In (k, l) (layout n lc' TMaster)).
  { intros n k l H. unfold layout, l_master. cbn in H |- *. decompose [or] H; try contradiction;
      match goal with H : (_, _) = (_, _) |- _ => injection H as <- <- end; tauto. }
  assert (G : forall o w, In (o, w) [(16, 4); (32, 4); (36, 4); (40, 2); (42, 2); (44, 2); (46, 1); (47, 1)]%nat -> fld false y o w = fld false z o w).
  { intros o w H. apply F; try (now apply I); cbn in H; decompose [or] H; try contradiction; match goal with H : (_, _) = (_, _) |- _ => injection H as <- <- end; lia. }
  assert (LY : length y = BS') by (exact (proj1 (C40_members BS' lc' swap HB' mnt vseq TMaster x y 0 0 eq_refl BX LX LD))).
  assert (N1 : forall (u : list N) i, (i < length u)%nat -> fld false u i 1 = nth i u 0).
  { intros u i Hi. unfold fld, at_. assert (X := nth_getb u i 1 0 ltac:(lia)). assert (LL := length_getb u i 1 ltac:(lia)). unfold getb in *.
    destruct (firstn 1 (skipn i u)) as [|c [|]]; try discriminate LL. cbn in X. rewrite Nat.add_0_r in X. rewrite <- X. cbn. lia. }
  destruct (master_says a b y) as [_ Y]; [|auto].
  unfold mb_says. rewrite <- (N1 y 46%nat), <- (N1 y 47%nat) by lia. rewrite !G by (cbn; tauto). rewrite (N1 z 46%nat), (N1 z 47%nat) by lia. exact S.
Qed.
(** Nor with a driver for the other byte order. *)
Theorem C39_order BS lc swap a b build time q mnt vseq :
  (48 <= BS)%nat -> conf_ok a -> length build = 8%nat -> bytes_ok build -> q <= UINT64_MAX ->
  mount_master BS lc (negb swap) mnt vseq b (master_written BS lc swap a build time q) = Err EIO.
Proof.
  intros HB CA LB BB Q. unfold mount_master, master_written. destruct (format_says BS a build time HB CA LB BB) as (L & B & _).
  now rewrite C40_order.
Qed.
