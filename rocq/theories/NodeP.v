(** Lemmas about Node.v: the byte-order conversion of a node is a permutation of its bytes. *)
From Verif Require Import Base Endian Crc Cache Metaroot MetaSpec MetarootP Node.
Ltac Zify.zify_post_hook ::= idtac.

Definition width_ok (w : nat) : Prop := (w = 2 \/ w = 4 \/ w = 8)%nat.
(** the members [fs] lie in this order between the offsets [lo] and [hi] *)
Fixpoint chain (lo hi : nat) (fs : list member) : Prop :=
  match fs with
  | [] => (lo <= hi)%nat
  | f :: r => (lo <= fst f)%nat /\ width_ok (snd f) /\ chain (fst f + snd f) hi r
  end.
Lemma chain_le fs : forall lo hi, chain lo hi fs -> (lo <= hi)%nat.
Proof. induction fs; cbn; intros; auto. destruct H as (A & B & C). apply IHfs in C. unfold width_ok in B. lia. Qed.
Lemma chain_lo fs lo lo' hi : chain lo hi fs -> (lo' <= lo)%nat -> chain lo' hi fs.
Proof. destruct fs; cbn; intros; [lia|]. destruct H as (A & B & C). split; [lia|auto]. Qed.
Lemma chain_app fs gs : forall lo mid hi, chain lo mid fs -> chain mid hi gs -> chain lo hi (fs ++ gs).
Proof.
  induction fs; cbn [app chain]; intros.
  - eapply chain_lo; eauto.
  - destruct H as (A & B & C). split; auto. split; auto. eapply IHfs; eauto.
Qed.
Lemma chain_in fs f : forall lo hi, chain lo hi fs -> In f fs -> (lo <= fst f /\ fst f + snd f <= hi)%nat /\ width_ok (snd f).
Proof.
  induction fs; intros lo hi C I; [destruct I|]. destruct C as (A & B & C). destruct I as [->|I].
  - pose proof (chain_le _ _ _ C). auto.
  - destruct (IHfs _ _ C I) as [X Y]. unfold width_ok in B. split; auto. lia.
Qed.
Lemma chain_words off n : forall hi, (off + 4 * n <= hi)%nat -> chain off hi (words off n).
Proof.
  revert off. induction n; intros off hi H; [cbn; lia|].
  unfold words. cbn [List.seq map]. cbn [chain fst snd]. split; [lia|]. split; [unfold width_ok; auto|].
  rewrite <- seq_shift, map_map. 
  assert (E : map (fun x => ((off + 4 * S x)%nat, 4%nat)) (List.seq 0 n) = words (off + 4) n).
  { unfold words. apply map_ext. intros. f_equal. lia. }
  rewrite E. replace (off + 4 * 0 + 4)%nat with (off + 4)%nat by lia. apply IHn. lia.
Qed.

Lemma get16_lt x off : bytes_ok x -> (off + 2 <= length x)%nat -> get16 x off < 2 ^ 16.
Proof. intros. pose proof (of_le_bytes_lt (getb x off 2) (bytes_getb _ _ _ H)) as L. rewrite length_getb in L by auto. exact L. Qed.
Lemma of2 x off : bytes_ok x -> (off + 2 <= length x)%nat -> le_bytes 2 (get16 x off) = getb x off 2.
Proof. intros. unfold get16. rewrite <- (length_getb x off 2) at 1 by auto. apply le_bytes_of_le. now apply bytes_getb. Qed.
Lemma rev_at_bytes f x : width_ok (snd f) -> bytes_ok x -> (fst f + snd f <= length x)%nat ->
  rev_at f x = putb x (fst f) (rev (getb x (fst f) (snd f))).
Proof.
  destruct f as [o w]. cbn [fst snd]. intros [->|[->| ->]] B L; cbn [rev_at fst snd].
  - unfold put16. f_equal. rewrite RedRev16_reverse by (apply get16_lt; auto). rewrite (le_bytes_byte_reverse 2). now rewrite of2.
  - now apply rev32_bytes.
  - now apply rev64_bytes.
Qed.
Definition inside (f : member) (i : nat) : bool := (fst f <=? i)%nat && (i <? fst f + snd f)%nat.
Definition flip (f : member) (i : nat) : nat := if inside f i then (2 * fst f + snd f - 1 - i)%nat else i.
Lemma rev_at_facts f x : width_ok (snd f) -> bytes_ok x -> (fst f + snd f <= length x)%nat ->
  length (rev_at f x) = length x /\ bytes_ok (rev_at f x) /\ forall i, nth i (rev_at f x) 0 = nth (flip f i) x 0.
Proof.
  intros W B L. rewrite rev_at_bytes by auto.
  assert (LG : length (getb x (fst f) (snd f)) = snd f) by (apply length_getb; auto).
  split; [apply length_putb; rewrite rev_length; lia|]. split; [apply bytes_putb; auto; apply rev_bytes_ok, bytes_getb; auto|].
  intros i. rewrite nth_putb by (rewrite rev_length; lia). rewrite rev_length, LG. unfold flip, inside.
  destruct ((fst f <=? i)%nat && (i <? fst f + snd f)%nat) eqn:E; auto.
  apply andb_true_iff in E. destruct E as [E1 E2]. apply Nat.leb_le in E1. apply Nat.ltb_lt in E2.
  rewrite rev_nth by lia. rewrite LG, nth_getb by lia. f_equal. lia.
Qed.

(** where byte i of the converted node comes from *)
Fixpoint src (fs : list member) (i : nat) : nat :=
  match fs with [] => i | f :: r => if inside f i then flip f i else src r i end.
Lemma inside_true f i : inside f i = true <-> (fst f <= i < fst f + snd f)%nat.
Proof. unfold inside. rewrite andb_true_iff, Nat.leb_le, Nat.ltb_lt. tauto. Qed.
Lemma inside_false f i : inside f i = false <-> ~ (fst f <= i < fst f + snd f)%nat.
Proof. rewrite <- inside_true. destruct (inside f i); split; intros; try congruence; exfalso; auto. Qed.
Lemma src_out fs : forall lo hi i, chain lo hi fs -> (i < lo)%nat -> src fs i = i.
Proof.
  induction fs; intros lo hi i C H; cbn [src]; auto. destruct C as (A & B & C).
  destruct (inside a i) eqn:E; [apply inside_true in E; lia|]. apply (IHfs _ _ i C). lia.
Qed.
Lemma src_ge fs : forall lo hi i, chain lo hi fs -> (lo <= i)%nat -> (lo <= src fs i)%nat.
Proof.
  induction fs; intros lo hi i C H; cbn [src]; auto. destruct C as (A & B & C).
  destruct (inside a i) eqn:E.
  - apply inside_true in E. unfold flip. rewrite (proj2 (inside_true a i)) by auto. lia.
  - apply inside_false in E. destruct (Nat.lt_ge_cases i (fst a + snd a)).
    + rewrite (src_out _ _ _ i C) by auto. auto.
    + pose proof (IHfs _ _ i C H0). lia.
Qed.
Lemma src_range fs : forall lo hi i, chain lo hi fs -> (lo <= i < hi)%nat -> (src fs i < hi)%nat.
Proof.
  induction fs; intros lo hi i C H; cbn [src]; [lia|]. destruct C as (A & B & C). pose proof (chain_le _ _ _ C).
  destruct (inside a i) eqn:E.
  - apply inside_true in E. unfold flip. rewrite (proj2 (inside_true a i)) by auto. lia.
  - apply inside_false in E. destruct (Nat.lt_ge_cases i (fst a + snd a)).
    + rewrite (src_out _ _ _ i C) by auto. lia.
    + apply (IHfs _ _ i C). lia.
Qed.
Lemma rev_all_facts fs : forall lo hi x, chain lo hi fs -> bytes_ok x -> (hi <= length x)%nat ->
  length (rev_all fs x) = length x /\ bytes_ok (rev_all fs x) /\ forall i, nth i (rev_all fs x) 0 = nth (src fs i) x 0.
Proof.
  induction fs as [|f fs IH]; intros lo hi x C B L; [cbn; auto|]. destruct C as (A & W & C).
  pose proof (chain_le _ _ _ C).
  destruct (rev_at_facts f x W B ltac:(lia)) as (L1 & B1 & N1).
  change (rev_all (f :: fs) x) with (rev_all fs (rev_at f x)).
  destruct (IH _ _ (rev_at f x) C B1 ltac:(lia)) as (L2 & B2 & N2).
  split; [lia|]. split; auto. intros i. rewrite N2, N1. f_equal. cbn [src].
  destruct (inside f i) eqn:E.
  - apply inside_true in E. rewrite (src_out _ _ _ i C) by lia. reflexivity.
  - apply inside_false in E. unfold flip. destruct (inside f (src fs i)) eqn:E2; auto.
    apply inside_true in E2. destruct (Nat.lt_ge_cases i (fst f + snd f)).
    + rewrite (src_out _ _ _ i C) in E2 by auto. lia.
    + pose proof (src_ge _ _ _ i C H0). lia.
Qed.
Lemma src_src fs : forall lo hi i, chain lo hi fs -> src fs (src fs i) = i.
Proof.
  induction fs as [|f fs IH]; intros lo hi i C; cbn [src]; auto. destruct C as (A & W & C).
  destruct (inside f i) eqn:E.
  - apply inside_true in E. unfold flip at 1. rewrite (proj2 (inside_true f i)) by auto.
    rewrite (proj2 (inside_true f (2 * fst f + snd f - 1 - i))) by lia.
    unfold flip. rewrite (proj2 (inside_true f i)) by auto. rewrite (proj2 (inside_true f (2 * fst f + snd f - 1 - i))) by lia. lia.
  - assert (E2 : inside f (src fs i) = false).
    { apply inside_false in E. apply inside_false. intros E2. destruct (Nat.lt_ge_cases i (fst f + snd f)).
      - rewrite (src_out _ _ _ i C) in E2 by auto. lia.
      - pose proof (src_ge _ _ _ i C H). lia. }
    rewrite E2. eapply IH; eauto.
Qed.
Lemma src_member fs f : forall lo hi i, chain lo hi fs -> In f fs -> (fst f <= i < fst f + snd f)%nat -> src fs i = (2 * fst f + snd f - 1 - i)%nat.
Proof.
  induction fs as [|g fs IH]; intros lo hi i C I H; [destruct I|]. destruct C as (A & W & C). cbn [src]. destruct I as [->|I].
  - unfold flip. now rewrite (proj2 (inside_true f i)) by auto.
  - destruct (chain_in _ _ _ _ C I) as [X _]. rewrite (proj2 (inside_false g i)) by lia. eapply IH; eauto.
Qed.

Section N.
Variable BS : nat.
Variable lc : lconf.
Variable swap : bool.
Hypothesis HB : (48 <= BS)%nat.
Notation SW := (BufferEndianSwap BS lc swap).

Lemma header_chain : chain 0 16 header_members.
Proof. unfold header_members, width_ok. cbn. unfold width_ok. lia. Qed.
Lemma master_chain : chain 16 BS master_members.
Proof. unfold master_members. cbn. unfold width_ok. lia. Qed.
Lemma div4 n : (4 * (n / 4) <= n)%nat.
Proof. apply Nat.mul_div_le. lia. Qed.
Lemma indir_chain : chain 16 BS (indir_members BS).
Proof.
  unfold indir_members. apply chain_app with (mid := 20%nat).
  - cbn. unfold width_ok. lia.
  - apply chain_words. pose proof (div4 (BS - 20)). lia.
Qed.
Lemma inode_chain : chain 16 BS (inode_members BS lc).
Proof.
  unfold inode_members.
  apply chain_app with (mid := 24%nat); [cbn; unfold width_ok; lia|].
  apply chain_app with (mid := ino_times lc); [unfold ino_blocks, ino_times; destruct (lc_blocks lc); cbn; unfold width_ok; lia|].
  apply chain_app with (mid := ino_mode lc); [unfold ino_mode; destruct (lc_times lc); cbn [chain fst snd]; unfold width_ok; lia|].
  apply chain_app with (mid := (ino_mode lc + 2)%nat); [cbn [chain fst snd]; unfold width_ok; lia|].
  apply chain_app with (mid := ino_pinode lc); [unfold ino_pinode; destruct (lc_posix lc && lc_link lc); cbn [chain fst snd]; unfold width_ok; lia|].
  apply chain_app with (mid := ino_entries lc); [unfold ino_entries; destruct (lc_posix lc); cbn [chain fst snd]; unfold width_ok; lia|].
  apply chain_words. pose proof (div4 (BS - ino_entries lc)).
  assert (ino_entries lc <= 48)%nat.
  { unfold ino_entries, ino_pinode, ino_mode, ino_times. destruct (lc_blocks lc), (lc_times lc), (lc_posix lc); lia. }
  lia.
Qed.
Lemma node_chain t : is_meta t = true -> exists body, node_members BS lc t = header_members ++ body /\ chain 16 BS body.
Proof.
  destruct t; intros M; try discriminate M; cbn [node_members].
  - eauto using master_chain.
  - exists []. split; [now rewrite app_nil_r|]. cbn; lia.
  - eauto using inode_chain.
  - eauto using indir_chain.
  - eauto using indir_chain.
Qed.
Lemma node_chain_all t : is_meta t = true -> chain 0 BS (node_members BS lc t).
Proof. intros M. destruct (node_chain t M) as (b & -> & C). eapply chain_app; eauto using header_chain. Qed.

(** where byte i of a converted node comes from *)
Definition from (t : btype) (i : nat) : nat := if swap then src (node_members BS lc t) i else i.
Lemma sw_facts t x : is_meta t = true -> bytes_ok x -> length x = BS ->
  length (SW t x) = BS /\ bytes_ok (SW t x) /\ forall i, nth i (SW t x) 0 = nth (from t i) x 0.
Proof.
  intros M B L. unfold BufferEndianSwap, from. destruct swap; [|auto].
  destruct (rev_all_facts _ _ _ x (node_chain_all t M) B ltac:(lia)) as (X & Y & Z). split; [lia|]. auto.
Qed.
Lemma from_from t i : is_meta t = true -> from t (from t i) = i.
Proof. intros M. unfold from. destruct swap; auto. eapply src_src, node_chain_all; auto. Qed.
Lemma from_header t o w i : is_meta t = true -> In (o, w) header_members -> (o <= i < o + w)%nat ->
  from t i = if swap then (2 * o + w - 1 - i)%nat else i.
Proof.
  intros M I H. unfold from. destruct swap; auto.
  apply (src_member _ (o, w) _ _ i (node_chain_all t M)); auto. destruct (node_chain t M) as (b & -> & _). apply in_or_app. auto.
Qed.
Lemma from_body t i : is_meta t = true -> (16 <= i)%nat -> (16 <= from t i)%nat.
Proof.
  intros M H. unfold from. destruct swap; auto. destruct (node_chain t M) as (b & -> & C).
  unfold header_members. cbn [app src]. rewrite !(proj2 (inside_false _ i)) by (cbn [fst snd]; lia). eapply src_ge; eauto.
Qed.
Lemma sw_at t x o w : is_meta t = true -> bytes_ok x -> length x = BS -> In (o, w) header_members ->
  at_ (SW t x) o w = if swap then rev (at_ x o w) else at_ x o w.
Proof.
  intros M B L I. destruct (sw_facts t x M B L) as (L1 & B1 & N1).
  assert (O : (o + w <= 16)%nat) by (destruct I as [I|[I|[I|[]]]]; injection I as <- <-; lia).
  change at_ with getb. assert (LG : length (getb x o w) = w) by (apply length_getb; lia).
  apply list_eq. { destruct swap; rewrite ?rev_length, !length_getb; lia. }
  rewrite length_getb by lia. intros i Hi. rewrite nth_getb, N1 by lia. rewrite (from_header t o w) by (auto; lia).
  destruct swap.
  - rewrite rev_nth by lia. rewrite LG, nth_getb by lia. f_equal. lia.
  - rewrite nth_getb by lia. reflexivity.
Qed.
Lemma sw_fld t x o w : is_meta t = true -> bytes_ok x -> length x = BS -> In (o, w) header_members ->
  fld swap (SW t x) o w = fld false x o w /\ fld false (SW t x) o w = fld swap x o w.
Proof. intros. unfold fld. rewrite sw_at by auto. destruct swap; auto. now rewrite rev_involutive. Qed.
Lemma w64_fld x off : bytes_ok x -> (off + 8 <= length x)%nat -> w64 swap (get64 x off) = fld swap x off 8.
Proof.
  intros. unfold w64, fld. destruct swap; [|reflexivity].
  rewrite rev8 by (apply get64_lt; auto). now rewrite of8.
Qed.

Definition nhdr (t : btype) (q : N) (x : list N) : list N := put64 (put32 x 0 (sig_of t)) 8 q.
Lemma nhdr_facts t q x : bytes_ok x -> length x = BS -> q <= UINT64_MAX ->
  length (nhdr t q x) = BS /\ bytes_ok (nhdr t q x) /\ skipn 16 (nhdr t q x) = skipn 16 x
  /\ fld false (nhdr t q x) 0 4 = sig_of t /\ fld false (nhdr t q x) 8 8 = q.
Proof.
  intros B L Q. unfold nhdr.
  assert (L1 : length (put32 x 0 (sig_of t)) = BS) by (unfold put32; rewrite length_putb; rewrite ?le4; lia).
  assert (B1 : bytes_ok (put32 x 0 (sig_of t))) by (apply bytes_putb; auto; apply le_bytes_ok).
  split; [unfold put64; rewrite length_putb; rewrite ?le8; lia|]. split; [apply bytes_putb; auto; apply le_bytes_ok|].
  split.
  { unfold put64. rewrite skipn_putb by (rewrite ?le8; lia). unfold put32. rewrite skipn_putb by (rewrite ?le4; lia). reflexivity. }
  split.
  { unfold put64. rewrite fld_other by (rewrite ?le8; lia). apply (get32_put32 x 0); [lia|]. destruct t; reflexivity. }
  unfold put64, fld. change (at_ ?a ?b ?k) with (getb a b k). rewrite <- (le8 q) at 2. rewrite getb_same by (rewrite le8, L1; lia).
  rewrite le8. apply of_le_bytes_le. unfold UINT64_MAX in Q. change (256 ^ N.of_nat 8) with 18446744073709551616. lia.
Qed.

Lemma seal_facts t q x : is_meta t = true -> bytes_ok x -> length x = BS -> q <= UINT64_MAX ->
  let y := node_seal BS lc swap t q x in
  length y = BS /\ bytes_ok y /\ fld swap y 0 4 = sig_of t /\ fld swap y 8 8 = q /\ fld swap y 4 4 = checksum (skipn 8 y)
  /\ skipn 16 (SW t y) = skipn 16 x.
Proof.
  intros M B L Q. cbv zeta. unfold node_seal. fold (nhdr t q x).
  destruct (nhdr_facts t q x B L Q) as (L1 & B1 & S1 & F0 & F8). set (m := nhdr t q x) in *.
  destruct (sw_facts t m M B1 L1) as (L2 & B2 & N2).
  assert (CL := checksum_lt (skipn 8 (SW t m)) (Forall_skipn _ _ _ B2)). unfold checksum in CL. fold crc32 in CL.
  set (c := crc32 0 (skipn 8 (SW t m))) in *.
  set (y := put32 (SW t m) 4 (w32 swap c)).
  assert (L3 : length y = BS) by (unfold y, put32; rewrite length_putb; rewrite ?le4; lia).
  assert (B3 : bytes_ok y) by (apply bytes_putb; auto; apply le_bytes_ok).
  split; auto. split; auto. split.
  { unfold y, put32. rewrite fld_other by (rewrite ?le4; lia). destruct (sw_fld t m 0 4 M B1 L1 (or_introl eq_refl)) as [-> _]. exact F0. }
  split.
  { unfold y, put32. rewrite fld_other by (rewrite ?le4; lia). destruct (sw_fld t m 8 8 M B1 L1) as [-> _]; [cbn; auto|]. exact F8. }
  split.
  { rewrite <- w32_fld by (auto; lia). unfold y. rewrite get32_put32 by (try lia; apply w32_lt; auto). rewrite w32_inv by auto.
    unfold put32. rewrite skipn_putb by (rewrite le4; lia). reflexivity. }
  rewrite <- S1. destruct (sw_facts t y M B3 L3) as (L4 & B4 & N4).
  apply skipn_nth; [lia|]. intros i Hi. rewrite N4. pose proof (from_body t i M Hi).
  unfold y, put32. rewrite nth_putb by (rewrite le4; lia). rewrite le4. cases. rewrite N2. now rewrite from_from.
Qed.

Lemma load_spec mnt vseq t x : is_meta t = true -> bytes_ok x -> length x = BS ->
  node_valid swap mnt vseq t x = true <->
  fld swap x 0 4 = sig_of t /\ fld swap x 4 4 = checksum (skipn 8 x) /\ (mnt = true -> fld swap x 8 8 < vseq).
Proof.
  intros M B L. unfold node_valid. rewrite M. cbn [andb].
  rewrite !w32_fld by (auto; lia). rewrite w64_fld by (auto; lia).
  rewrite !andb_true_iff, !N.eqb_eq, negb_true_iff, andb_false_iff, N.leb_gt. unfold checksum, crc32.
  destruct mnt; intuition; try discriminate.
Qed.
End N.
