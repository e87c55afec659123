(** The buffer cache (Cache.v) simulates uncached storage (CacheSpec.v). *)
From Verif Require Import Base Crc Endian Cache CacheSpec.
From Coq Require Import Permutation.
Ltac Zify.zify_post_hook ::= idtac.

Lemma updn_same {A} (f : nat -> A) i x : updn f i x i = x.
Proof. unfold updn. now rewrite Nat.eqb_refl. Qed.
Lemma updn_other {A} (f : nat -> A) i x j : j <> i -> updn f i x j = f j.
Proof. unfold updn. intros. now rewrite (proj2 (Nat.eqb_neq _ _)) by auto. Qed.
Lemma updn_cases {A} (f : nat -> A) i x j : (j = i /\ updn f i x j = x) \/ (j <> i /\ updn f i x j = f j).
Proof. destruct (Nat.eq_dec j i); [left; subst; now rewrite updn_same | right; now rewrite updn_other]. Qed.
Lemma upd2_same {A} (f : N -> N -> A) v b x : upd2 f v b x v b = x.
Proof. unfold upd2. now rewrite !N.eqb_refl. Qed.
Lemma upd2_other {A} (f : N -> N -> A) v b x v' b' : ~ (v' = v /\ b' = b) -> upd2 f v b x v' b' = f v' b'.
Proof.
  unfold upd2. intros H. destruct (N.eqb_spec v' v), (N.eqb_spec b' b); auto. now exfalso; apply H.
Qed.
Lemma btype_eqb_eq a b : btype_eqb a b = true <-> a = b.
Proof. destruct a, b; cbn; split; congruence. Qed.
Lemma btype_eqb_refl a : btype_eqb a a = true.
Proof. now apply btype_eqb_eq. Qed.
Lemma is_meta_data t : is_meta t = false <-> t = TData.
Proof. destruct t; cbn; split; congruence. Qed.

Lemma NoDup_map_in {A B} (f : A -> B) l : (forall x y, In x l -> In y l -> f x = f y -> x = y) -> NoDup l -> NoDup (map f l).
Proof.
  induction l as [|a l IH]; cbn; intros H N; constructor; inversion N; subst.
  - intros Q. apply in_map_iff in Q. destruct Q as (x & E & Hx). assert (x = a) by (apply H; auto). congruence.
  - apply IH; auto.
Qed.
(** ** the MRU list *)
Definition mru_ok (NB : nat) (l : list nat) : Prop := length l = NB /\ NoDup l /\ forall i, In i l -> (i < NB)%nat.

Lemma mru_all NB l i : mru_ok NB l -> (i < NB)%nat -> In i l.
Proof.
  intros (L & ND & LT) Hi.
  assert (I : incl (seq 0 NB) l).
  { apply NoDup_length_incl; auto. rewrite seq_length, L. lia.
    intros x Hx. apply in_seq. specialize (LT x Hx). lia. }
  apply I, in_seq. lia.
Qed.
Lemma position_spec i l k : position i l = Some k -> l = firstn k l ++ i :: skipn (S k) l /\ (k < length l)%nat.
Proof.
  revert k; induction l as [|x l IH]; cbn; intros k; [discriminate|].
  destruct (Nat.eqb_spec i x).
  - intros E; inversion E; subst; cbn. split; auto. lia.
  - destruct (position i l) as [m|]; cbn; [|discriminate]. intros E; inversion E; subst.
    destruct (IH m eq_refl) as [A B]. cbn. split; [f_equal; auto|lia].
Qed.
Lemma mru_perm NB l l' : Permutation l l' -> mru_ok NB l -> mru_ok NB l'.
Proof.
  intros P (L & ND & LT). repeat split.
  - now rewrite <- (Permutation_length P).
  - now apply (Permutation_NoDup P).
  - intros i Hi. apply LT. apply (Permutation_in _ (Permutation_sym P)); auto.
Qed.
Lemma firstn_firstn_min {A} k m (l : list A) : (k <= m)%nat -> firstn k (firstn m l) = firstn k l.
Proof. intros. rewrite firstn_firstn. now rewrite Nat.min_l. Qed.
Lemma skipn_S_1 {A} (l : list A) k : skipn k (skipn 1 l) = skipn (S k) l.
Proof. destruct l; cbn; auto. now rewrite skipn_nil. Qed.

Definition same_but_mru (c c' : cst) : Prop :=
  c_used c' = c_used c /\ c_head c' = c_head c /\ c_buf c' = c_buf c /\ c_disk c' = c_disk c /\ c_seq c' = c_seq c /\ c_io c' = c_io c.

Lemma MakeMRU_spec NB i c : mru_ok NB (c_mru c) ->
  mru_ok NB (c_mru (BufferMakeMRU NB i c)) /\ same_but_mru c (BufferMakeMRU NB i c).
Proof.
  intros M. unfold BufferMakeMRU. destruct (Nat.leb NB i); [repeat split; auto; apply M|].
  destruct (Nat.eqb i (nth 0 (c_mru c) 0%nat)); [repeat split; auto; apply M|].
  destruct (position i (skipn 1 (c_mru c))) as [k|] eqn:P; [|repeat split; auto; apply M].
  apply position_spec in P. destruct P as [P Hk].
  unfold set_mru, same_but_mru; cbn [c_mru c_used c_head c_buf c_disk c_seq c_io]. split; [|tauto].
  refine (mru_perm _ _ _ _ M).
  destruct (c_mru c) as [|x l]; cbn [skipn length] in *; [cbn in Hk; lia|].
  rewrite P at 1. change (firstn (S k) (x :: l)) with (x :: firstn k l).
  change (i :: (x :: firstn k l) ++ skipn (S k) l) with ([i] ++ (x :: firstn k l) ++ skipn (S k) l).
  change (x :: firstn k l ++ i :: skipn (S k) l) with ((x :: firstn k l) ++ i :: skipn (S k) l).
  symmetry. apply (Permutation_middle (x :: firstn k l) (skipn (S k) l) i).
Qed.
Lemma MakeLRU_spec NB i c : mru_ok NB (c_mru c) ->
  mru_ok NB (c_mru (BufferMakeLRU NB i c)) /\ same_but_mru c (BufferMakeLRU NB i c).
Proof.
  intros M. unfold BufferMakeLRU. destruct (Nat.leb NB i); [repeat split; auto; apply M|].
  destruct (Nat.eqb i (nth (NB - 1) (c_mru c) 0%nat)); [repeat split; auto; apply M|].
  destruct (position i (firstn (NB - 1) (c_mru c))) as [k|] eqn:P; [|repeat split; auto; apply M].
  apply position_spec in P. destruct P as [P Hk]. rewrite firstn_length in Hk.
  unfold set_mru, same_but_mru; cbn [c_mru c_used c_head c_buf c_disk c_seq c_io]. split; [|tauto].
  refine (mru_perm _ _ _ _ M).
  assert (E : c_mru c = firstn k (c_mru c) ++ i :: skipn (S k) (c_mru c)).
  { assert (N1 : nth_error (c_mru c) k = Some i).
    { assert (Q : nth_error (firstn (NB - 1) (c_mru c)) k = Some i).
      { rewrite P. rewrite nth_error_app2; rewrite firstn_length, firstn_length.
        - replace (k - Nat.min k (Nat.min (NB - 1) (length (c_mru c))))%nat with 0%nat by lia. reflexivity.
        - lia. }
      rewrite <- Q. clear - Hk. revert k Hk. generalize (c_mru c) as l. generalize (NB - 1)%nat as m.
      induction m; intros l k Hk; [cbn in Hk; lia|]. destruct l; [cbn in Hk; lia|].
      destruct k; cbn; auto. apply IHm. cbn in Hk. lia. }
    clear - N1. revert k N1. induction (c_mru c) as [|x l IH]; intros k N1; [destruct k; discriminate|].
    destruct k; cbn in *; [congruence|]. f_equal. now apply IH. }
  rewrite E at 1. apply Permutation_app_head. rewrite <- Permutation_cons_append. reflexivity.
Qed.

(** ** counting the referenced buffers *)
Fixpoint cnt (f : nat -> bool) (n : nat) : N :=
  match n with O => 0 | S m => cnt f m + if f m then 1 else 0 end.
Lemma cnt_le f n : cnt f n <= N.of_nat n.
Proof. induction n; cbn [cnt]; [lia|]. destruct (f n); lia. Qed.
Lemma cnt_full f n : cnt f n = N.of_nat n -> forall i, (i < n)%nat -> f i = true.
Proof.
  induction n; cbn [cnt]; intros E i Hi; [lia|]. pose proof (cnt_le f n).
  destruct (f n) eqn:F; [|lia]. destruct (Nat.eq_dec i n); [congruence|]. apply IHn; lia.
Qed.
Lemma cnt_all f n : (forall i, (i < n)%nat -> f i = true) -> cnt f n = N.of_nat n.
Proof.
  induction n; cbn [cnt]; intros H; [lia|]. rewrite (H n) by lia. rewrite IHn; [lia|]. intros; apply H; lia.
Qed.
Lemma cnt_ext f g n : (forall i, (i < n)%nat -> f i = g i) -> cnt f n = cnt g n.
Proof. induction n; cbn [cnt]; intros H; auto. rewrite (H n) by lia. rewrite IHn; auto. Qed.
Lemma cnt_set f g n i : (i < n)%nat -> (forall j, j <> i -> g j = f j) ->
  cnt g n + (if f i then 1 else 0) = cnt f n + (if g i then 1 else 0).
Proof.
  intros Hi E. induction n; [lia|]. cbn [cnt]. destruct (Nat.eq_dec n i).
  - subst. rewrite (cnt_ext g f i); [lia|]. intros; apply E; lia.
  - rewrite (E n) by auto. specialize (IHn ltac:(lia)). lia.
Qed.

(** ** node headers *)
Lemma of_le_4 x : x < 2 ^ 32 -> of_le_bytes (le_bytes 4 x) = x.
Proof. intros. apply of_le_bytes_le. apply (N.lt_le_trans _ _ _ H). now vm_compute. Qed.
Lemma of_le_8 x : x < 2 ^ 64 -> of_le_bytes (le_bytes 8 x) = x.
Proof. intros. apply of_le_bytes_le. apply (N.lt_le_trans _ _ _ H). now vm_compute. Qed.
Lemma sig_lt t : sig_of t < 2 ^ 32.
Proof. destruct t; now vm_compute. Qed.
Lemma bytes_app a b : bytes_ok a -> bytes_ok b -> bytes_ok (a ++ b).
Proof. intros. apply Forall_app. auto. Qed.
Lemma bytes_skip n a : bytes_ok a -> bytes_ok (skipn n a).
Proof. apply Forall_skipn. Qed.
Lemma bytes_first n a : bytes_ok a -> bytes_ok (firstn n a).
Proof. apply Forall_firstn. Qed.
Lemma crc_node_lt x : bytes_ok x -> crc_node x < 2 ^ 32.
Proof. intros. apply crc_lt; [now vm_compute|]. now apply bytes_skip. Qed.

Lemma firstn_exact {A} n (a b : list A) : length a = n -> firstn n (a ++ b) = a.
Proof. intros. subst. rewrite firstn_app, Nat.sub_diag, firstn_all. cbn. apply app_nil_r. Qed.
Lemma skipn_exact {A} n (a b : list A) : length a = n -> skipn n (a ++ b) = b.
Proof. intros. subst. rewrite skipn_app, Nat.sub_diag, skipn_all. auto. Qed.
Lemma skipn_skipn_add {A} n m (l : list A) : skipn n (skipn m l) = skipn (m + n) l.
Proof. revert l; induction m; intros; cbn; auto. destruct l; [now rewrite skipn_nil | apply IHm]. Qed.

Lemma stamp_shape t q x : (16 <= length x)%nat -> exists k,
  stamp t q x = le_bytes 4 (sig_of t) ++ le_bytes 4 k ++ le_bytes 8 q ++ skipn 16 x
  /\ k = crc_node (le_bytes 4 (sig_of t) ++ firstn 4 (skipn 4 x) ++ le_bytes 8 q ++ skipn 16 x).
Proof.
  intros L. eexists; split; [|reflexivity]. unfold stamp.
  rewrite (firstn_exact 4) by apply le_bytes_length. f_equal. f_equal.
  change 8%nat with (4 + 4)%nat at 1. rewrite <- skipn_skipn_add.
  rewrite (skipn_exact 4) by apply le_bytes_length.
  rewrite (skipn_exact 4). reflexivity. rewrite firstn_length, skipn_length. lia.
Qed.
Lemma skipn8_pre {A} (a b r : list A) : length a = 4%nat -> length b = 4%nat -> skipn 8 (a ++ b ++ r) = r.
Proof.
  intros. change 8%nat with (4 + 4)%nat. rewrite <- skipn_skipn_add.
  rewrite (skipn_exact 4) by auto. now rewrite (skipn_exact 4) by auto.
Qed.
Lemma stamp_facts t q x : (16 <= length x)%nat -> bytes_ok x -> q < 2 ^ 64 ->
  node_sig (stamp t q x) = sig_of t /\ node_crc (stamp t q x) = crc_node (stamp t q x)
  /\ node_seq (stamp t q x) = q /\ same_body x (stamp t q x) /\ bytes_ok (stamp t q x).
Proof.
  intros L B Q. destruct (stamp_shape t q x L) as (k & -> & K).
  assert (L4 : forall y, length (le_bytes 4 y) = 4%nat) by (intros; apply le_bytes_length).
  assert (L8 : forall y, length (le_bytes 8 y) = 8%nat) by (intros; apply le_bytes_length).
  assert (KL : k < 2 ^ 32).
  { subst k. apply crc_node_lt. repeat apply bytes_app; try apply le_bytes_ok. now apply bytes_first, bytes_skip. now apply bytes_skip. }
  assert (S8 : forall y r : list N, length y = 4%nat -> skipn 8 (le_bytes 4 (sig_of t) ++ y ++ r) = r)
    by (intros; now apply skipn8_pre).
  repeat split.
  - unfold node_sig. rewrite (firstn_exact 4) by auto. apply of_le_4, sig_lt.
  - unfold node_crc. rewrite (skipn_exact 4), (firstn_exact 4) by auto. rewrite of_le_4 by auto.
    rewrite K. unfold crc_node, RedCrcNode. rewrite !S8; auto. rewrite firstn_length, skipn_length. lia.
  - unfold node_seq. rewrite S8 by auto. rewrite (firstn_exact 8) by auto. now apply of_le_8.
  - rewrite !app_length, !L4, !L8, skipn_length. lia.
  - repeat apply bytes_app; try apply le_bytes_ok. now apply bytes_skip.
Qed.

Lemma same_body_refl x : same_body x x.
Proof. split; auto. Qed.
Lemma same_body_sym x y : same_body x y -> same_body y x.
Proof. intros [A B]; split; auto. Qed.
Lemma same_body_trans x y z : same_body x y -> same_body y z -> same_body x z.
Proof. intros [A B] [C D]; split; congruence. Qed.

(** ** the invariant *)
Section P.
Variable NB BS : nat.
Variable NV : N.
Variable bc : N -> N.
Variable mounted : N -> bool.
Variable orc : N -> option (N -> list N).
Variable seq0 : N -> N.
Hypothesis HNB : (0 < NB < 256)%nat.
Hypothesis HBS : (16 <= BS)%nat.
Hypothesis Hbc : forall v, v < NV -> bc v <= UINT32_MAX.
Hypothesis Horc : forall n j b, orc n = Some j -> blk_ok BS (j b).

Definition valid (h : head) : Prop := hd_blk h <> BBLK_INVALID.
Definition isv v (c : cst) x t := BufferIsValid mounted v c x t.

Definition disk_has (c : cst) (v b : N) (k : cont) : Prop :=
  match k with
  | Unknown => True
  | Raw x => c_disk c v b = x
  | Node t x => isv v c (c_disk c v b) t = true /\ same_body x (c_disk c v b)
  end.
Definition cont_ok (k : cont) (t : btype) (x : list N) : Prop :=
  match k with
  | Unknown => True
  | Raw y => t = TData /\ x = y
  | Node t' y => t = t' /\ is_meta t = true /\ same_body y x
  end.
Definition head_ok (c : cst) (s : spec) (h : head) (x : list N) : Prop :=
  valid h ->
  hd_vol h < NV /\ hd_blk h < bc (hd_vol h)
  /\ s_used s (hd_vol h) (hd_blk h) = true
  /\ (hd_dirty h = true -> s_pend s (hd_vol h) (hd_blk h) = true)
  /\ cont_ok (s_cont s (hd_vol h) (hd_blk h)) (hd_type h) x
  /\ (hd_dirty h = false -> disk_has c (hd_vol h) (hd_blk h) (s_cont s (hd_vol h) (hd_blk h))).
Definition uncached (c : cst) (v b : N) : Prop :=
  forall i, (i < NB)%nat -> ~ (hd_vol (c_head c i) = v /\ hd_blk (c_head c i) = b).
Definition hand_ok (s : spec) (p : nat) (h : head) : Prop :=
  match s_hand s p with
  | Some a => valid h /\ hd_vol h = h_vol a /\ hd_blk h = h_blk a /\ hd_ref h = h_cnt a /\ 0 < h_cnt a <= 255
              /\ (h_wr a = true -> hd_dirty h = true) /\ s_cont s (h_vol a) (h_blk a) <> Unknown
  | None => hd_ref h = 0
  end.
Definition refd (c : cst) (i : nat) : bool := negb (hd_ref (c_head c i) =? 0).

Record Inv (c : cst) (s : spec) : Prop := {
  I_mru : mru_ok NB (c_mru c);
  I_uniq : forall i j, (i < NB)%nat -> (j < NB)%nat -> valid (c_head c i) ->
     hd_vol (c_head c i) = hd_vol (c_head c j) -> hd_blk (c_head c i) = hd_blk (c_head c j) -> i = j;
  I_head : forall i, (i < NB)%nat -> head_ok c s (c_head c i) (c_buf c i);
  I_buf : forall i, (i < NB)%nat -> blk_ok BS (c_buf c i);
  I_disk : forall v b, blk_ok BS (c_disk c v b);
  I_seq : forall v, seq0 v <= c_seq c v <= UINT64_MAX;
  I_used : c_used c = cnt (refd c) NB;
  I_miss : forall v b, v < NV -> b < bc v -> uncached c v b -> disk_has c v b (s_cont s v b);
  I_hand : forall p, (p < NB)%nat -> hand_ok s p (c_head c p);
  I_out : forall p, (NB <= p)%nat -> s_hand s p = None }.

(** an I/O call failed, or a sequence number ran out, on the way from [c] to [c'] *)
Definition env_fail (c c' : cst) : Prop :=
  (exists n, c_io c <= n < c_io c' /\ orc n <> None) \/ (exists v, c_seq c' v = UINT64_MAX).

Lemma blk_ok_len x : blk_ok BS x -> (16 <= length x)%nat.
Proof. intros [H _]. lia. Qed.

(** validity on the disk depends on the sequence number only monotonically *)
Lemma isv_mono v c c' x t : c_seq c v <= c_seq c' v -> isv v c x t = true -> isv v c' x t = true.
Proof.
  unfold isv, BufferIsValid. intros S H. apply andb_prop in H. destruct H as [H1 H2]. rewrite H1, andb_true_l.
  apply negb_true_iff in H2. apply negb_true_iff. apply andb_false_iff in H2. apply andb_false_iff.
  destruct H2 as [H2|H2]; auto. right. apply N.leb_gt in H2. apply N.leb_gt. lia.
Qed.
Lemma disk_has_mono c c' v b k : c_seq c v <= c_seq c' v -> c_disk c' v b = c_disk c v b ->
  disk_has c v b k -> disk_has c' v b k.
Proof.
  intros S D. destruct k; cbn; auto; rewrite D; auto. intros [A B]. split; auto. eapply isv_mono; eauto.
Qed.

(** ** writing out a buffer *)
Definition same_heads (c c' : cst) : Prop := c_used c' = c_used c /\ c_mru c' = c_mru c /\ c_head c' = c_head c.

Lemma finalize_spec i c : hd_vol (c_head c i) < NV -> is_meta (hd_type (c_head c i)) = true ->
  blk_ok BS (c_buf c i) -> c_seq c (hd_vol (c_head c i)) <= UINT64_MAX ->
  forall r c', BufferFinalize NV i (hd_vol (c_head c i)) (hd_type (c_head c i)) c = (r, c') ->
  same_heads c c' /\ c_disk c' = c_disk c /\ c_io c' = c_io c
  /\ match r with
     | Ok _ => c_seq c' = upd (c_seq c) (hd_vol (c_head c i)) (c_seq c (hd_vol (c_head c i)) + 1)
               /\ c_seq c (hd_vol (c_head c i)) < UINT64_MAX
               /\ c_buf c' = updn (c_buf c) i (stamp (hd_type (c_head c i)) (c_seq c (hd_vol (c_head c i))) (c_buf c i))
     | Err _ => c' = c /\ c_seq c (hd_vol (c_head c i)) = UINT64_MAX
     end.
Proof.
  intros V M B S r c'. unfold BufferFinalize, RedVolSeqNumIncrement.
  rewrite (proj2 (N.leb_gt _ _) V).
  assert (Z : (sig_of (hd_type (c_head c i)) =? 0) = false) by (destruct (hd_type (c_head c i)); auto; discriminate).
  rewrite Z. destruct (N.eqb_spec (c_seq c (hd_vol (c_head c i))) UINT64_MAX); intros E; inversion E; subst; clear E.
  - repeat split; auto.
  - unfold set_buf, set_seq, same_heads; cbn. repeat split; auto. lia.
Qed.

Lemma io_write_spec v b x c r c' : blk_ok BS x ->
  io_write orc v b x c = (r, c') ->
  same_heads c c' /\ c_seq c' = c_seq c /\ c_buf c' = c_buf c /\ c_io c' = c_io c + 1
  /\ exists y, c_disk c' = upd (c_disk c) v (upd (c_disk c v) b y) /\ blk_ok BS y
     /\ match r with Ok _ => y = x | Err _ => orc (c_io c) <> None end.
Proof.
  intros B. unfold io_write. destruct (orc (c_io c)) as [j|] eqn:O; intros E; inversion E; subst; clear E;
    unfold tick, set_disk, same_heads; cbn; repeat split; auto.
  - exists (j b). repeat split; try apply (Horc _ _ _ O). congruence.
  - exists x. repeat split; auto; apply B.
Qed.
Lemma updupd (d : N -> N -> list N) v b y v' b' :
  upd d v (upd (d v) b y) v' b' = if (v' =? v) && (b' =? b) then y else d v' b'.
Proof.
  unfold upd. destruct (N.eqb_spec v' v); cbn; auto. subst. destruct (b' =? b); auto.
Qed.

(** what [BufferWrite] does to a buffer that passes [head_ok] *)
Lemma BufferWrite_spec i c s : Inv c s -> (i < NB)%nat -> valid (c_head c i) -> hd_dirty (c_head c i) = true ->
  forall r c', BufferWrite NB NV orc i c = (r, c') ->
  Inv c' s /\ same_heads c c' /\ c_io c <= c_io c'
  /\ match r with
     | Ok _ => disk_has c' (hd_vol (c_head c i)) (hd_blk (c_head c i)) (s_cont s (hd_vol (c_head c i)) (hd_blk (c_head c i)))
     | Err _ => env_fail c c'
     end.
Proof.
  intros I Hi V D r c' E.
  pose proof (I_head _ _ I i Hi V) as (V1 & V2 & V3 & V4 & V5 & _).
  pose proof (I_buf _ _ I i Hi) as B.
  unfold BufferWrite in E. rewrite (proj2 (Nat.ltb_lt _ _) Hi) in E.
  set (h := c_head c i) in *.
  (* the buffer after finalization *)
  assert (F : exists r1 c1, (if is_meta (hd_type h) then BufferFinalize NV i (hd_vol h) (hd_type h) c else (Ok tt, c)) = (r1, c1)
    /\ same_heads c c1 /\ c_disk c1 = c_disk c /\ c_io c1 = c_io c
    /\ (forall v, c_seq c v <= c_seq c1 v <= UINT64_MAX)
    /\ (forall j, j <> i -> c_buf c1 j = c_buf c j) /\ blk_ok BS (c_buf c1 i)
    /\ cont_ok (s_cont s (hd_vol h) (hd_blk h)) (hd_type h) (c_buf c1 i)
    /\ match r1 with
       | Ok _ => is_meta (hd_type h) = true -> isv (hd_vol h) c1 (c_buf c1 i) (hd_type h) = true
       | Err _ => c_seq c1 (hd_vol h) = UINT64_MAX
       end).
  { destruct (is_meta (hd_type h)) eqn:M.
    - destruct (BufferFinalize NV i (hd_vol h) (hd_type h) c) as [r1 c1] eqn:F. exists r1, c1. split; [reflexivity|].
      pose proof (finalize_spec i c V1 M B (proj2 (I_seq _ _ I _)) r1 c1 F) as (A1 & A2 & A3 & A4). fold h in A4.
      split; [exact A1|]. split; [exact A2|]. split; [exact A3|].
      destruct r1 as [u|e].
      + destruct A4 as (Q1 & Q2 & Q3).
        assert (LT : c_seq c (hd_vol h) < 2 ^ 64) by (apply (N.le_lt_trans _ _ _ (proj2 (I_seq _ _ I _))); now vm_compute).
        destruct (stamp_facts (hd_type h) (c_seq c (hd_vol h)) (c_buf c i) (blk_ok_len _ B) (proj2 B) LT) as (F1 & F2 & F3 & F4 & F5).
        split.
        { intros v. rewrite Q1. unfold upd. pose proof (I_seq _ _ I v). destruct (N.eqb_spec v (hd_vol h)); subst; lia. }
        split; [intros j Hj; rewrite Q3; now apply updn_other|].
        rewrite Q3, updn_same.
        split; [split; [rewrite <- (proj1 F4); apply B | exact F5]|]. split.
        { destruct (s_cont s (hd_vol h) (hd_blk h)) as [|y|t y]; cbn in *; auto.
          - destruct V5 as [T _]. now rewrite T in M.
          - destruct V5 as (T1 & T2 & T3). repeat split; auto. rewrite (proj1 T3). apply F4. rewrite (proj2 T3). apply F4. }
        intros _. unfold isv, BufferIsValid. rewrite M, F1, F2, !N.eqb_refl, F3, Q1, upd_same. cbn.
        rewrite (proj2 (N.leb_gt _ _)) by lia. now rewrite andb_false_r.
      + destruct A4 as [-> A4]. repeat split; auto; try apply (I_seq _ _ I); try apply B. apply N.le_refl.
    - exists (Ok tt), c. repeat split; auto; try apply (I_seq _ _ I); try apply B. apply N.le_refl. discriminate. }
  destruct F as (r1 & c1 & F0 & (SH1 & SH2 & SH3) & FD & FI & FS & FB & FBi & FC & FR).
  rewrite F0 in E.
  assert (I1 : Inv c1 s).
  { constructor.
    - rewrite SH2. apply I.
    - rewrite SH3. apply I.
    - intros j Hj. rewrite SH3. intros Vj. pose proof (I_head _ _ I j Hj Vj) as (W1 & W2 & W3 & W4 & W5 & W6).
      repeat split; auto.
      + destruct (Nat.eq_dec j i); [subst; exact FC | rewrite FB by auto; exact W5].
      + intros Dj. eapply disk_has_mono; [apply FS| |apply W6, Dj]. now rewrite FD.
    - intros j Hj. destruct (Nat.eq_dec j i); [subst; exact FBi | rewrite FB by auto; apply (I_buf _ _ I j Hj)].
    - intros v b. rewrite FD. apply I.
    - intros v. pose proof (I_seq _ _ I v). pose proof (FS v). lia.
    - rewrite SH1. rewrite (I_used _ _ I). apply cnt_ext. intros. unfold refd. now rewrite SH3.
    - intros v b Hv Hb U. eapply disk_has_mono; [apply FS|now rewrite FD|]. apply (I_miss _ _ I); auto.
      intros j Hj. specialize (U j Hj). now rewrite SH3 in U.
    - intros p Hp. rewrite SH3. apply (I_hand _ _ I p Hp).
    - apply I. }
  destruct r1 as [u|e].
  2:{ inversion E; subst. split; [exact I1|]. split; [repeat split; auto|]. split; [lia|]. right. eauto. }
  destruct (io_write_spec _ _ _ _ _ _ FBi E) as ((SG1 & SG2 & SG3) & GS & GB & GI & y & GD & GY & GR).
  assert (DD : forall v b, c_disk c' v b = if (v =? hd_vol h) && (b =? hd_blk h) then y else c_disk c1 v b)
    by (intros; rewrite GD; apply updupd).
  assert (OTH : forall v b, ~ (v = hd_vol h /\ b = hd_blk h) -> c_disk c' v b = c_disk c1 v b).
  { intros v b H. rewrite DD. destruct (N.eqb_spec v (hd_vol h)), (N.eqb_spec b (hd_blk h)); auto. now exfalso; apply H. }
  assert (I2 : Inv c' s).
  { constructor.
    - rewrite SG2. apply I1.
    - rewrite SG3. apply I1.
    - intros j Hj. rewrite SG3. intros Vj. pose proof (I_head _ _ I1 j Hj Vj) as (W1 & W2 & W3 & W4 & W5 & W6).
      repeat split; auto.
      + rewrite GB. exact W5.
      + intros Dj. apply (disk_has_mono c1); [rewrite GS; apply N.le_refl| |apply W6, Dj].
        apply OTH. intros [Q1 Q2]. assert (j = i).
        { apply (I_uniq _ _ I1); auto; rewrite SH3 in *; auto. }
        subst j. rewrite SH3 in Dj. fold h in Dj. congruence.
    - intros j Hj. rewrite GB. apply (I_buf _ _ I1 j Hj).
    - intros v b. rewrite DD. destruct ((v =? hd_vol h) && (b =? hd_blk h)); auto. apply I1.
    - intros v. rewrite GS. apply (I_seq _ _ I1).
    - rewrite SG1. rewrite (I_used _ _ I1). apply cnt_ext. intros. unfold refd. now rewrite SG3.
    - intros v b Hv Hb U.
      assert (NE : ~ (v = hd_vol h /\ b = hd_blk h)).
      { intros [-> ->]. apply (U i Hi). rewrite SG3, SH3. auto. }
      apply (disk_has_mono c1); [rewrite GS; apply N.le_refl|now apply OTH|]. apply (I_miss _ _ I1); auto.
      intros j Hj. specialize (U j Hj). now rewrite SG3 in U.
    - intros p Hp. rewrite SG3. apply (I_hand _ _ I1 p Hp).
    - apply I1. }
  split; [exact I2|]. split; [repeat split; congruence|]. split; [lia|].
  destruct r as [u'|e].
  - subst y. assert (ED : c_disk c' (hd_vol h) (hd_blk h) = c_buf c1 i) by (rewrite DD, !N.eqb_refl; auto).
    destruct (s_cont s (hd_vol h) (hd_blk h)) as [|z|t z]; cbn in *; auto.
    + rewrite <- (proj2 FC). exact ED.
    + destruct FC as (T1 & T2 & T3). rewrite ED. split; [|exact T3].
      apply (isv_mono _ c1); [rewrite GS; apply N.le_refl|]. rewrite <- T1. now apply FR.
  - left. exists (c_io c1). split; [lia|exact GR].
Qed.

(** ** changing one buffer *)
Lemma Inv_one c s c' s' i : Inv c s -> (i < NB)%nat ->
  mru_ok NB (c_mru c') ->
  (forall j, j <> i -> c_head c' j = c_head c j) -> (forall j, j <> i -> c_buf c' j = c_buf c j) ->
  c_disk c' = c_disk c -> c_seq c' = c_seq c ->
  blk_ok BS (c_buf c' i) ->
  c_used c' + (if refd c i then 1 else 0) = c_used c + (if refd c' i then 1 else 0) ->
  (valid (c_head c' i) -> forall j, (j < NB)%nat -> j <> i ->
     ~ (hd_vol (c_head c j) = hd_vol (c_head c' i) /\ hd_blk (c_head c j) = hd_blk (c_head c' i))) ->
  head_ok c' s' (c_head c' i) (c_buf c' i) ->
  (forall j, (j < NB)%nat -> j <> i -> valid (c_head c j) ->
     let v := hd_vol (c_head c j) in let b := hd_blk (c_head c j) in
     s_cont s' v b = s_cont s v b /\ s_used s' v b = s_used s v b /\ s_pend s' v b = s_pend s v b) ->
  (forall v b, v < NV -> b < bc v -> uncached c' v b -> disk_has c v b (s_cont s' v b)) ->
  (forall p, p <> i -> s_hand s' p = s_hand s p) -> hand_ok s' i (c_head c' i) ->
  Inv c' s'.
Proof.
  intros I Hi M Eh Eb Ed Es Bi U UN HO AG MI HA HI.
  assert (DH : forall v b k, disk_has c v b k -> disk_has c' v b k)
    by (intros v b k; apply disk_has_mono; [rewrite Es; lia | now rewrite Ed]).
  constructor; auto.
  - intros j k Hj Hk V E1 E2. destruct (Nat.eq_dec j i) as [->|Nj], (Nat.eq_dec k i) as [->|Nk]; auto.
    + exfalso. rewrite (Eh k Nk) in E1, E2. apply (UN V k Hk Nk). auto.
    + exfalso. rewrite (Eh j Nj) in E1, E2, V. apply (UN ltac:(unfold valid; rewrite <- E2; exact V) j Hj Nj). auto.
    + rewrite (Eh j Nj), (Eh k Nk) in *. apply (I_uniq _ _ I); auto.
  - intros j Hj. destruct (Nat.eq_dec j i) as [->|Nj]; auto. rewrite Eh, Eb by auto. intros V.
    destruct (AG j Hj Nj V) as (A1 & A2 & A3).
    pose proof (I_head _ _ I j Hj V) as (W1 & W2 & W3 & W4 & W5 & W6). rewrite A1, A2, A3.
    split; [auto|]. split; [auto|]. split; [auto|]. split; [auto|]. split; auto.
  - intros j Hj. destruct (Nat.eq_dec j i) as [->|Nj]; auto. rewrite Eb by auto. apply (I_buf _ _ I j Hj).
  - rewrite Ed. apply I.
  - rewrite Es. apply I.
  - pose proof (cnt_set (refd c) (refd c') NB i Hi) as Q.
    rewrite (I_used _ _ I) in U. specialize (Q ltac:(intros j Nj; unfold refd; now rewrite Eh by auto)). lia.
  - intros p Hp. destruct (Nat.eq_dec p i) as [->|Np]; auto. rewrite Eh by auto.
    pose proof (I_hand _ _ I p Hp) as H. unfold hand_ok in *. rewrite HA by auto.
    destruct (s_hand s p) as [a|]; auto. destruct H as (H1 & H2 & H3 & H4 & H5 & H6 & H7).
    repeat split; auto; try apply H5. destruct (AG p Hp Np H1) as (A1 & _). rewrite H2, H3 in A1. now rewrite A1.
  - intros p Hp. rewrite HA by lia. now apply I.
Qed.

Lemma find_some v b hs n i k : find_from v b hs n i = Some k ->
  (i <= k < i + n)%nat /\ hd_vol (hs k) = v /\ hd_blk (hs k) = b.
Proof.
  revert i; induction n; intros i; cbn [find_from]; [discriminate|].
  destruct ((hd_vol (hs i) =? v) && (hd_blk (hs i) =? b)) eqn:E.
  - intros Q; inversion Q; subst. apply andb_prop in E. destruct E as [E1 E2].
    apply N.eqb_eq in E1. apply N.eqb_eq in E2. repeat split; auto; lia.
  - intros Q. destruct (IHn (S i) Q) as (A & B & C). repeat split; auto; lia.
Qed.
Lemma find_none v b hs n i : find_from v b hs n i = None ->
  forall k, (i <= k < i + n)%nat -> ~ (hd_vol (hs k) = v /\ hd_blk (hs k) = b).
Proof.
  revert i; induction n; intros i; cbn [find_from]; intros E k Hk; [lia|].
  destruct ((hd_vol (hs i) =? v) && (hd_blk (hs i) =? b)) eqn:Q; [discriminate|].
  destruct (Nat.eq_dec k i) as [->|].
  - intros [A B]. rewrite A, B, !N.eqb_refl in Q. discriminate.
  - apply (IHn _ E). lia.
Qed.

Lemma blk_valid v b : v < NV -> b < bc v -> b <> BBLK_INVALID.
Proof. intros V B. pose proof (Hbc v V). unfold BBLK_INVALID. lia. Qed.

(** a pointer held for (v,b) is the index of the buffer that holds it *)
Lemma held_idx c s p a : Inv c s -> s_hand s p = Some a ->
  (p < NB)%nat /\ hand_ok s p (c_head c p).
Proof.
  intros I H. assert (P : (p < NB)%nat).
  { destruct (Nat.lt_ge_cases p NB) as [|L]; auto. rewrite (I_out _ _ I p L) in H. discriminate. }
  split; auto. now apply I.
Qed.

(** clean or uncached blocks are on the disk *)
Lemma clean_disk c s v b : Inv c s -> v < NV -> b < bc v -> s_pend s v b = false -> disk_has c v b (s_cont s v b).
Proof.
  intros I Hv Hb P. destruct (find_from v b (c_head c) NB 0) as [i|] eqn:F.
  - apply find_some in F. destruct F as (L & E1 & E2). assert (Hi : (i < NB)%nat) by lia.
    assert (V : valid (c_head c i)) by (unfold valid; rewrite E2; eapply blk_valid; eauto).
    pose proof (I_head _ _ I i Hi V) as (W1 & W2 & W3 & W4 & W5 & W6). rewrite E1, E2 in *.
    apply W6. destruct (hd_dirty (c_head c i)); auto. rewrite P in W4. now discriminate W4.
  - apply (I_miss _ _ I); auto. intros k Hk. apply (find_none _ _ _ _ _ F). lia.
Qed.

(** ** RedBufferGet *)
Definition got (s : spec) v b t (new dirty : bool) p : spec :=
  mkSpec (upd2 (s_cont s) v b (if new then zeros BS t else typed t (s_cont s v b)))
         (upd2 (s_used s) v b true) (upd2 (s_pend s) v b (s_pend s v b || dirty))
         (updn (s_hand s) p (Some match s_hand s p with
                                  | Some h => mkHnd v b (h_cnt h + 1) (h_wr h || dirty)
                                  | None => mkHnd v b 1 dirty
                                  end)).

Lemma get_ref_proj t dirty i c : mru_ok NB (c_mru c) ->
  let c' := get_ref NB t dirty i c in
  let h := c_head c i in
  mru_ok NB (c_mru c')
  /\ c_head c' = updn (c_head c) i (mkHead (hd_blk h) (hd_vol h) (u8 (hd_ref h + 1)) (if btype_eqb (hd_type h) TData then t else hd_type h) (hd_dirty h || dirty))
  /\ c_buf c' = c_buf c /\ c_disk c' = c_disk c /\ c_seq c' = c_seq c /\ c_io c' = c_io c
  /\ c_used c' = if u8 (hd_ref h + 1) =? 1 then u16 (c_used c + 1) else c_used c.
Proof.
  intros M. cbv zeta. unfold get_ref.
  set (c2 := set_head _ _ _).
  destruct (MakeMRU_spec NB i c2) as (A & B1 & B2 & B3 & B4 & B5 & B6).
  { unfold c2. destruct (u8 (hd_ref (c_head c i) + 1) =? 1); exact M. }
  split; [exact A|]. rewrite B2, B3, B4, B5, B6, B1. unfold c2.
  destruct (u8 (hd_ref (c_head c i) + 1) =? 1); cbn; auto 10.
Qed.

Lemma u8_small n : n < 256 -> u8 n = n.
Proof. intros. unfold u8. now apply N.mod_small. Qed.
Lemma u16_small n : n < 65536 -> u16 n = n.
Proof. intros. unfold u16. now apply N.mod_small. Qed.
Lemma used_le c s : Inv c s -> c_used c <= N.of_nat NB.
Proof. intros I. rewrite (I_used _ _ I). apply cnt_le. Qed.

Lemma get_hit c s v b t dirty i : Inv c s -> (i < NB)%nat -> v < NV -> b < bc v ->
  hd_vol (c_head c i) = v -> hd_blk (c_head c i) = b -> hd_type (c_head c i) = t ->
  s_cont s v b <> Unknown ->
  (forall a, s_hand s i = Some a -> h_cnt a < 255) ->
  Inv (get_ref NB t dirty i c) (got s v b t false dirty i).
Proof.
  intros I Hi Hv Hb Ev Eb Et K C.
  destruct (get_ref_proj t dirty i c (I_mru _ _ I)) as (P1 & P2 & P3 & P4 & P5 & P6 & P7).
  assert (V : valid (c_head c i)) by (unfold valid; rewrite Eb; eapply blk_valid; eauto).
  pose proof (I_head _ _ I i Hi V) as (W1 & W2 & W3 & W4 & W5 & W6). rewrite Ev, Eb in *.
  pose proof (I_hand _ _ I i Hi) as HH. unfold hand_ok in HH.
  assert (R : hd_ref (c_head c i) < 255).
  { destruct (s_hand s i) as [a|]; [|lia]. specialize (C a eq_refl). lia. }
  assert (R1 : u8 (hd_ref (c_head c i) + 1) = hd_ref (c_head c i) + 1) by (apply u8_small; lia).
  rewrite R1 in *.
  assert (TT : (if btype_eqb (hd_type (c_head c i)) TData then t else hd_type (c_head c i)) = t)
    by (rewrite Et; destruct (btype_eqb t TData); auto).
  rewrite TT in P2.
  assert (CC : typed t (s_cont s v b) = s_cont s v b).
  { destruct (s_cont s v b) as [|x|t' x]; cbn in *; auto. destruct W5 as [W5 _]. rewrite <- Et, W5. reflexivity. }
  assert (AGC : forall v' b', s_cont (got s v b t false dirty i) v' b' = s_cont s v' b').
  { intros. unfold got, upd2; cbn [s_cont]. rewrite CC. destruct (N.eqb_spec v' v), (N.eqb_spec b' b); subst; auto. }
  refine (Inv_one c s _ _ i I Hi P1 _ _ P4 P5 _ _ _ _ _ _ _ _).
  - intros j Nj. rewrite P2. now apply updn_other.
  - intros j Nj. now rewrite P3.
  - rewrite P3. now apply I.
  - pose proof (used_le _ _ I). rewrite P7. unfold refd. rewrite P2, updn_same; cbn [hd_ref].
    destruct (N.eqb_spec (hd_ref (c_head c i)) 0) as [Z|Z].
    + rewrite Z, N.add_0_l. change (1 =? 1) with true. change (1 =? 0) with false. cbn [negb].
      rewrite u16_small by (clear - H HNB; lia). clear; lia.
    + rewrite (proj2 (N.eqb_neq _ _)) by lia. rewrite (proj2 (N.eqb_neq (hd_ref (c_head c i) + 1) 0)) by lia. cbn. lia.
  - rewrite P2, updn_same; cbn [hd_vol hd_blk]. intros _ j Hj Nj [E1 E2]. apply Nj.
    symmetry. apply (I_uniq _ _ I); auto; congruence.
  - rewrite P2, P3, updn_same. intros _. cbn [hd_vol hd_blk hd_type hd_dirty]. rewrite AGC.
    split; auto. split; auto. split. { unfold got; cbn [s_used]. now rewrite upd2_same. }
    split. { unfold got; cbn [s_pend]. rewrite upd2_same. intros Q. apply orb_true_iff in Q. apply orb_true_iff. tauto. }
    split. { rewrite <- Et. exact W5. }
    intros Q. apply orb_false_iff in Q. destruct Q as [Q _].
    apply (disk_has_mono c); [rewrite P5; lia | now rewrite P4 | auto].
  - intros j Hj Nj Vj. cbv zeta. rewrite AGC. split; auto.
    assert (NE : ~ (hd_vol (c_head c j) = v /\ hd_blk (c_head c j) = b)).
    { intros [E1 E2]. apply Nj. apply (I_uniq _ _ I); auto; congruence. }
    unfold got; cbn [s_used s_pend]. rewrite !upd2_other by exact NE. auto.
  - intros v' b' Hv' Hb' U. rewrite AGC. apply (I_miss _ _ I); auto.
    intros j Hj. specialize (U j Hj). rewrite P2 in U. unfold updn in U. destruct (Nat.eqb_spec j i) as [Q|Q];
    [subst j; rewrite Ev, Eb; exact U | exact U].
  - intros p Np. unfold got; cbn [s_hand]. now apply updn_other.
  - rewrite P2, updn_same. unfold hand_ok, got. cbn [s_hand s_cont]. rewrite updn_same.
    assert (AGC' := AGC v b). unfold got in AGC'. cbn [s_cont] in AGC'.
    destruct (s_hand s i) as [a|]; cbn [hd_vol hd_blk hd_ref hd_dirty h_vol h_blk h_cnt h_wr]; rewrite AGC'.
    + specialize (C a eq_refl). destruct HH as (H1 & H2 & H3 & H4 & H5 & H6 & H7).
      split; [eapply blk_valid; eauto|]. do 2 (split; [reflexivity|]). split; [now rewrite H4|].
      split; [lia|]. split; [|exact K].
      intros Q. apply orb_true_iff in Q. apply orb_true_iff. destruct Q; auto.
    + rewrite HH. split; [eapply blk_valid; eauto|]. do 3 (split; [reflexivity|]). split; [lia|]. split; [|exact K].
      intros ->. apply orb_true_r.
Qed.

Lemma victim_spec c k : (forall j, (j <= k)%nat -> hd_ref (c_head c (nth j (c_mru c) 0%nat)) <> 0) \/
  ((victim_slot c k <= k)%nat /\ hd_ref (c_head c (nth (victim_slot c k) (c_mru c) 0%nat)) = 0).
Proof.
  induction k; cbn [victim_slot].
  - destruct (N.eq_dec (hd_ref (c_head c (nth 0 (c_mru c) 0%nat))) 0); [right; auto|].
    left. intros j Hj. now replace j with 0%nat by lia.
  - destruct (N.eqb_spec (hd_ref (c_head c (nth (S k) (c_mru c) 0%nat))) 0); [right; split; [lia|auto]|].
    destruct IHk as [L|[L R]]; [left|right; split; [lia|auto]].
    intros j Hj. destruct (Nat.eq_dec j (S k)); [congruence|]. apply L. lia.
Qed.
Lemma victim_ok c s : Inv c s -> c_used c <> N.of_nat NB ->
  let i := nth (victim_slot c (NB - 1)) (c_mru c) 0%nat in (i < NB)%nat /\ hd_ref (c_head c i) = 0.
Proof.
  intros I U. cbv zeta. destruct (I_mru _ _ I) as (ML & MN & MB).
  destruct (victim_spec c (NB - 1)) as [L|[L R]].
  - exfalso. apply U. rewrite (I_used _ _ I). apply cnt_all. intros i Hi.
    destruct (In_nth _ _ 0%nat (mru_all NB _ i (I_mru _ _ I) Hi)) as (k & Hk & E).
    unfold refd. specialize (L k ltac:(lia)). rewrite E in L. apply negb_true_iff, N.eqb_neq. exact L.
  - split; auto. apply MB, nth_In. lia.
Qed.

Lemma get_claim c s c' v b t (new dirty : bool) i : Inv c s -> (i < NB)%nat -> v < NV -> b < bc v ->
  hd_ref (c_head c i) = 0 ->
  (valid (c_head c i) -> disk_has c (hd_vol (c_head c i)) (hd_blk (c_head c i)) (s_cont s (hd_vol (c_head c i)) (hd_blk (c_head c i)))) ->
  uncached c v b ->
  c_mru c' = c_mru c -> c_used c' = c_used c ->
  (forall j, j <> i -> c_head c' j = c_head c j) -> (forall j, j <> i -> c_buf c' j = c_buf c j) ->
  c_disk c' = c_disk c -> c_seq c' = c_seq c ->
  c_head c' i = mkHead b v 0 TData false ->
  (if new then dirty = true /\ c_buf c' i = repeat 0 BS
   else c_buf c' i = c_disk c v b /\ s_cont s v b <> Unknown
        /\ (is_meta t = true -> isv v c (c_disk c v b) t = true)
        /\ (forall t' x, s_cont s v b = Node t' x -> t = t')) ->
  Inv (get_ref NB t dirty i c') (got s v b t new dirty i).
Proof.
  intros I Hi Hv Hb R0 DK UC Em Eu Eh Eb Ed Es Hh CO.
  destruct (get_ref_proj t dirty i c') as (P1 & P2 & P3 & P4 & P5 & P6 & P7). { rewrite Em. apply I. }
  rewrite Hh in P2, P7. cbn [hd_blk hd_vol hd_ref hd_type hd_dirty] in P2, P7. change (u8 (0 + 1)) with 1 in P2, P7.
  change (btype_eqb TData TData) with true in P2. change (1 =? 1) with true in P7. rewrite orb_false_l in P2. cbv iota in P2, P7.
  pose proof (I_hand _ _ I i Hi) as HH. unfold hand_ok in HH.
  assert (HN : s_hand s i = None).
  { destruct (s_hand s i) as [a|]; auto. exfalso. destruct HH as (_ & _ & _ & H4 & H5 & _). lia. }
  assert (VB : b <> BBLK_INVALID) by (eapply blk_valid; eauto).
  pose proof (I_miss _ _ I v b Hv Hb UC) as DM.
  assert (CO' : cont_ok (if new then zeros BS t else typed t (s_cont s v b)) t (c_buf c' i)
    /\ (if new then zeros BS t else typed t (s_cont s v b)) <> Unknown
    /\ (dirty = false -> disk_has c v b (if new then zeros BS t else typed t (s_cont s v b)))
    /\ blk_ok BS (c_buf c' i)).
  { destruct new.
    - destruct CO as [-> CO]. rewrite CO. unfold zeros. destruct (is_meta t) eqn:M; cbn; rewrite ?M.
      + repeat split; auto; try discriminate. apply repeat_length. apply Forall_forall. intros x Hx. apply repeat_spec in Hx. subst; lia.
      + repeat split; auto; try discriminate. now apply is_meta_data. apply repeat_length. apply Forall_forall. intros x Hx. apply repeat_spec in Hx. subst; lia.
    - destruct CO as (C1 & C2 & C3 & C4). rewrite C1.
      assert (BK : blk_ok BS (c_disk c v b)) by apply I.
      destruct (s_cont s v b) as [|x|t' x]; cbn [typed]; [congruence| |].
      + cbn in DM. subst x. destruct (is_meta t) eqn:M; cbn; rewrite ?M; repeat split; auto; try discriminate; try apply BK.
        now apply is_meta_data.
      + specialize (C4 t' x eq_refl). subst t'. destruct DM as [D1 D2]. cbn.
        assert (M : is_meta t = true). { unfold isv, BufferIsValid in D1. destruct (is_meta t); auto. }
        rewrite M. repeat split; auto; try discriminate; try apply D2; try apply BK. }
  destruct CO' as (K1 & K2 & K3 & K4).
  refine (Inv_one c s _ _ i I Hi P1 _ _ _ _ _ _ _ _ _ _ _ _).
  - intros j Nj. rewrite P2, updn_other by auto. auto.
  - intros j Nj. rewrite P3. auto.
  - congruence.
  - congruence.
  - now rewrite P3.
  - pose proof (used_le _ _ I). rewrite P7, Eu. unfold refd. rewrite P2, updn_same, R0; cbn [hd_ref].
    change (0 =? 0) with true. change (1 =? 0) with false. cbn [negb]. rewrite u16_small by (clear - H HNB; lia). clear; lia.
  - rewrite P2, updn_same; cbn [hd_vol hd_blk]. intros _ j Hj Nj E. apply (UC j Hj E).
  - rewrite P2, P3, updn_same. intros _. cbn [hd_vol hd_blk hd_type hd_dirty]. unfold got; cbn [s_cont s_used s_pend]. rewrite !upd2_same.
    split; auto. split; auto. split; auto. split. { intros ->. apply orb_true_r. } split; auto.
    intros Q. apply (disk_has_mono c); [rewrite P5, Es; lia | now rewrite P4, Ed | auto].
  - intros j Hj Nj Vj. cbv zeta. unfold got; cbn [s_cont s_used s_pend]. rewrite !upd2_other by apply (UC j Hj). auto.
  - intros v' b' Hv' Hb' U.
    assert (NE : ~ (v' = v /\ b' = b)). { intros [-> ->]. apply (U i Hi). rewrite P2, updn_same. auto. }
    unfold got; cbn [s_cont]. rewrite upd2_other by exact NE.
    destruct (N.eq_dec (hd_vol (c_head c i)) v') as [E1|E1]; [destruct (N.eq_dec (hd_blk (c_head c i)) b') as [E2|E2]|].
    + rewrite <- E1, <- E2. apply DK. unfold valid. rewrite E2. eapply blk_valid; eauto.
    + apply (I_miss _ _ I); auto. intros j Hj Q. destruct (Nat.eq_dec j i); [subst; tauto|].
      apply (U j Hj). rewrite P2, updn_other by auto. now rewrite Eh.
    + apply (I_miss _ _ I); auto. intros j Hj Q. destruct (Nat.eq_dec j i); [subst; tauto|].
      apply (U j Hj). rewrite P2, updn_other by auto. now rewrite Eh.
  - intros p Np. unfold got; cbn [s_hand]. now apply updn_other.
  - rewrite P2, updn_same. unfold hand_ok, got. cbn [s_hand s_cont]. rewrite updn_same, HN.
    cbn [hd_vol hd_blk hd_ref hd_dirty h_vol h_blk h_cnt h_wr]. rewrite upd2_same.
    split; [exact VB|]. repeat split; auto; lia.
Qed.

(** dropping an unreferenced buffer whose contents are on the disk *)
Lemma drop_one c s c' i : Inv c s -> (i < NB)%nat -> hd_ref (c_head c i) = 0 ->
  (valid (c_head c i) -> disk_has c (hd_vol (c_head c i)) (hd_blk (c_head c i)) (s_cont s (hd_vol (c_head c i)) (hd_blk (c_head c i)))) ->
  mru_ok NB (c_mru c') -> c_used c' = c_used c ->
  (forall j, j <> i -> c_head c' j = c_head c j) -> (forall j, j <> i -> c_buf c' j = c_buf c j) ->
  c_disk c' = c_disk c -> c_seq c' = c_seq c -> blk_ok BS (c_buf c' i) ->
  c_head c' i = with_blk (c_head c i) BBLK_INVALID ->
  Inv c' s.
Proof.
  intros I Hi R0 DK Em Eu Eh Eb Ed Es BK Hh.
  pose proof (I_hand _ _ I i Hi) as HH. unfold hand_ok in HH.
  assert (HN : s_hand s i = None).
  { destruct (s_hand s i) as [a|]; auto. exfalso. destruct HH as (_ & _ & _ & H4 & H5 & _). lia. }
  refine (Inv_one c s _ _ i I Hi Em Eh Eb Ed Es BK _ _ _ _ _ _ _).
  - unfold refd. rewrite Hh; cbn [with_blk hd_ref]. lia.
  - rewrite Hh. intros V. now exfalso; apply V.
  - rewrite Hh. intros V. now exfalso; apply V.
  - intros j Hj Nj V. auto.
  - intros v' b' Hv' Hb' U.
    destruct (N.eq_dec (hd_vol (c_head c i)) v') as [E1|E1]; [destruct (N.eq_dec (hd_blk (c_head c i)) b') as [E2|E2]|].
    + rewrite <- E1, <- E2. apply DK. unfold valid. rewrite E2. eapply blk_valid; eauto.
    + apply (I_miss _ _ I); auto. intros j Hj Q. destruct (Nat.eq_dec j i); [subst; tauto|].
      apply (U j Hj). now rewrite Eh.
    + apply (I_miss _ _ I); auto. intros j Hj Q. destruct (Nat.eq_dec j i); [subst; tauto|].
      apply (U j Hj). now rewrite Eh.
  - auto.
  - unfold hand_ok. rewrite HN, Hh. exact R0.
Qed.

Lemma env_weaken c c1 c' : c_io c <= c_io c1 -> (forall v, c_seq c1 v <= c_seq c' v) -> (forall v, c_seq c' v <= UINT64_MAX) ->
  c_io c1 <= c_io c' -> (env_fail c c1 \/ env_fail c1 c') -> env_fail c c'.
Proof.
  intros L S B L' [[(n & H & O)|(v & E)]|[(n & H & O)|(v & E)]].
  - left. exists n. split; auto. lia.
  - right. exists v. pose proof (S v). pose proof (B v). lia.
  - left. exists n. split; auto. lia.
  - right. eauto.
Qed.

Lemma get_sim c s v b t new dirty r c' : Inv c s -> allowed BS NV bc s (CGet v b t new dirty) ->
  RedBufferGet NB BS NV bc mounted orc v b t new dirty c = (r, c') ->
  c_io c <= c_io c' /\
  exists s', sstep NB BS bc mounted seq0 (env_fail c c') s (CGet v b t new dirty) (OBuf r) s' /\ Inv c' s'.
Proof.
  intros I (Hv & HC & HA) E. unfold RedBufferGet in E.
  destruct (N.leb_spec (bc v) b) as [Hb|Hb].
  { inversion E; subst. split; [lia|]. exists s. split; auto. now constructor. }
  specialize (HA Hb). unfold BufferFind in E. rewrite (proj2 (N.leb_gt _ _) Hb) in E.
  destruct (find_from v b (c_head c) NB 0) as [i|] eqn:F.
  - apply find_some in F. destruct F as (L & E1 & E2). assert (Hi : (i < NB)%nat) by lia.
    assert (V : valid (c_head c i)) by (unfold valid; rewrite E2; eapply blk_valid; eauto).
    pose proof (I_head _ _ I i Hi V) as (W1 & W2 & W3 & W4 & W5 & W6). rewrite E1, E2 in *.
    assert (NN : new = false). { destruct new; auto. destruct HA as [_ HA]. congruence. }
    subst new. rewrite orb_false_l in E.
    assert (TT : t = hd_type (c_head c i) /\ s_cont s v b <> Unknown).
    { destruct (s_cont s v b) as [|x|t' x]; [contradiction| |]; split; try discriminate; cbn in W5.
      - destruct W5 as [W5 _]. destruct HA; congruence.
      - destruct W5 as [W5 _]. congruence. }
    destruct TT as [TT KN]. rewrite <- TT, btype_eqb_refl in E. cbn [negb] in E. inversion E; subst r c'; clear E.
    destruct (get_ref_proj t dirty i c (I_mru _ _ I)) as (_ & _ & _ & _ & _ & P6 & _).
    split; [rewrite P6; lia|].
    exists (got s v b t false dirty i). split.
    + apply S_get; auto.
      * pose proof (I_hand _ _ I i Hi) as HH. unfold hand_ok in HH. destruct (s_hand s i) as [a|] eqn:HS.
        -- destruct HH as (_ & A1 & A2 & _). split; congruence.
        -- intros (p & a & Q1 & Q2 & Q3). destruct (held_idx c s p a I Q1) as [Hp HP]. unfold hand_ok in HP. rewrite Q1 in HP.
           destruct HP as (A0 & A1 & A2 & _). assert (p = i) by (apply (I_uniq _ _ I); auto; congruence). congruence.
      * intros _ x Q M. rewrite Q in W5. cbn in W5. destruct W5 as [W5 _]. rewrite TT, W5 in M. discriminate.
    + apply get_hit; auto. intros a Q. apply (HC i a Q). pose proof (I_hand _ _ I i Hi) as HH. unfold hand_ok in HH. rewrite Q in HH.
      destruct HH as (_ & A1 & A2 & _). split; congruence.
  - assert (UC : uncached c v b) by (intros k Hk; apply (find_none _ _ _ _ _ F); lia).
    assert (NH : ~ held s v b).
    { intros (p & a & Q1 & Q2 & Q3). destruct (held_idx c s p a I Q1) as [Hp HP]. unfold hand_ok in HP. rewrite Q1 in HP.
      destruct HP as (A0 & A1 & A2 & _). apply (UC p Hp). split; congruence. }
    destruct (N.eqb_spec (c_used c) (N.of_nat NB)) as [U|U].
    { inversion E; subst. split; [lia|]. exists s. split; auto. apply S_get_busy; auto.
      intros p Hp Q. pose proof (I_hand _ _ I p Hp) as HH. unfold hand_ok in HH. rewrite Q in HH.
      rewrite (I_used _ _ I) in U. pose proof (cnt_full _ _ U p Hp) as T. unfold refd in T. rewrite HH in T. discriminate. }
    destruct (victim_ok c s I U) as [Hi R0]. set (i := nth (victim_slot c (NB - 1)) (c_mru c) 0%nat) in *. clearbody i.
    unfold get_fill in E. rewrite R0, N.eqb_refl in E.
    assert (WR : exists r1 c1, (if hd_dirty (c_head c i) && negb (hd_blk (c_head c i) =? BBLK_INVALID) then BufferWrite NB NV orc i c else (Ok tt, c)) = (r1, c1)
      /\ Inv c1 s /\ same_heads c c1 /\ c_io c <= c_io c1
      /\ match r1 with
         | Ok _ => valid (c_head c1 i) -> disk_has c1 (hd_vol (c_head c1 i)) (hd_blk (c_head c1 i)) (s_cont s (hd_vol (c_head c1 i)) (hd_blk (c_head c1 i)))
         | Err _ => env_fail c c1
         end).
    { destruct (hd_dirty (c_head c i)) eqn:D; [destruct (N.eqb_spec (hd_blk (c_head c i)) BBLK_INVALID) as [Z|Z]|]; cbn [andb negb].
      - exists (Ok tt), c. split; [reflexivity|]. split; auto. split; [repeat split|]. split; [lia|]. intros V. contradiction.
      - destruct (BufferWrite NB NV orc i c) as [r1 c1] eqn:W. exists r1, c1. split; auto.
        destruct (BufferWrite_spec i c s I Hi Z D r1 c1 W) as (A1 & A2 & A3 & A4).
        split; [exact A1|]. split; [exact A2|]. split; [exact A3|]. destruct r1; auto. intros _. destruct A2 as (_ & _ & ->). exact A4.
      - exists (Ok tt), c. split; [reflexivity|]. split; auto. split; [repeat split|]. split; [lia|]. intros V. now apply (I_head _ _ I i Hi V). }
    destruct WR as (r1 & c1 & E0 & I1 & (SH1 & SH2 & SH3) & L1 & R1). rewrite E0 in E. clear E0.
    destruct r1 as [u|e].
    2:{ inversion E; subst. split; auto. exists s. split; auto. now apply S_get_env. }
    assert (UC1 : uncached c1 v b) by (intros k Hk; rewrite SH3; now apply UC).
    assert (R01 : hd_ref (c_head c1 i) = 0) by now rewrite SH3.
    pose proof (I_hand _ _ I i Hi) as HH. unfold hand_ok in HH.
    assert (HN : s_hand s i = None).
    { destruct (s_hand s i) as [a|]; auto. exfalso. destruct HH as (_ & _ & _ & H4 & H5 & _). clear - R0 H4 H5. lia. }
    clear HH.
    destruct new.
    + destruct HA as [-> HA].
      match type of E with (_, get_ref _ _ _ _ ?cc) = _ => set (c2 := cc) in * end.
      injection E as <- <-.
      assert (I2 : Inv (get_ref NB t true i c2) (got s v b t true true i)).
      { apply (get_claim c1 s c2 v b t true true i); auto; unfold c2, set_head, set_buf; cbn.
        - intros j Nj. now apply updn_other.
        - intros j Nj. now apply updn_other.
        - rewrite updn_same. now rewrite R01.
        - split; auto. apply updn_same. }
      destruct (get_ref_proj t true i c2) as (_ & _ & _ & _ & _ & P6 & _).
      { unfold c2; cbn. apply I1. }
      split; [rewrite P6; exact L1|]. exists (got s v b t true true i). split; [|exact I2].
      apply S_get; auto. now rewrite HN. discriminate.
    + set (c2 := set_head c1 i (with_blk (c_head c1 i) BBLK_INVALID)) in *.
      unfold io_read in E. change (c_io c2) with (c_io c1) in E. unfold io_read_junk in E. change (c_io c2) with (c_io c1) in E.
      destruct (orc (c_io c1)) as [j|] eqn:O.
      * inversion E; subst r c'; clear E. cbn [set_buf tick c_io].
        change (c_io c2) with (c_io c1). split; [lia|]. exists s. split.
        -- apply S_get_env. apply (env_weaken c c1); auto; cbn [set_buf tick c_seq c_io c2 set_head].
           ++ intros; apply N.le_refl.
           ++ intros v0. apply (I_seq _ _ I1).
           ++ lia.
           ++ right. left. exists (c_io c1). change (c_io (set_buf (tick c2) i (j b))) with (c_io c1 + 1). split; [clear; lia | congruence].
        -- apply (drop_one c1 s _ i I1 Hi R01 R1); unfold c2, set_buf, tick, set_head; cbn; auto.
           ++ apply I1.
           ++ intros k Nk. now apply updn_other.
           ++ intros k Nk. now apply updn_other.
           ++ rewrite updn_same. eapply Horc; eauto.
           ++ now rewrite updn_same.
      * change (c_disk c2 v b) with (c_disk c1 v b) in E.
        destruct (is_meta t && negb (BufferIsValid mounted v (set_buf (tick c2) i (c_disk c1 v b)) (c_disk c1 v b) t)) eqn:BV.
        -- inversion E; subst r c'; clear E. cbn [set_buf tick c_io]. change (c_io c2) with (c_io c1). split; [lia|].
           apply andb_prop in BV. destruct BV as [M BV]. apply negb_true_iff in BV.
           exists s. split.
           ++ pose proof (I_miss _ _ I1 v b Hv Hb UC1) as DM.
              destruct (s_cont s v b) as [|x|t' x] eqn:SC; [contradiction| |].
              ** apply S_get_invalid with x; auto. intros [[S1 S2] S3]. cbn in DM. subst x.
                 unfold BufferIsValid in BV. rewrite M, S1, S2, !N.eqb_refl in BV. cbn [andb] in BV.
                 apply negb_false_iff in BV. apply andb_prop in BV. destruct BV as [B1 B2]. specialize (S3 B1).
                 apply N.leb_le in B2. cbn [set_buf tick c_seq c2 set_head] in B2. pose proof (I_seq _ _ I1 v). lia.
              ** exfalso. subst t'. destruct DM as [D1 _]. unfold isv in D1. unfold BufferIsValid in *.
                 cbn [set_buf tick c_seq c2 set_head] in BV. congruence.
           ++ apply (drop_one c1 s _ i I1 Hi R01 R1); unfold c2, set_buf, tick, set_head; cbn; auto.
              ** apply I1.
              ** intros k Nk. now apply updn_other.
              ** intros k Nk. now apply updn_other.
              ** rewrite updn_same. apply I1.
              ** now rewrite updn_same.
        -- match type of E with (_, get_ref _ _ _ _ ?cc) = _ => set (c3 := cc) in * end.
           injection E as <- <-.
           assert (IV : is_meta t = true -> isv v c1 (c_disk c1 v b) t = true).
           { intros M. rewrite M in BV. cbn [andb] in BV. apply negb_false_iff in BV. exact BV. }
           assert (I2 : Inv (get_ref NB t dirty i c3) (got s v b t false dirty i)).
           { apply (get_claim c1 s c3 v b t false dirty i); auto; unfold c3, c2, set_head, set_buf, tick; cbn.
             - intros j Nj. now rewrite !updn_other by auto.
             - intros j Nj. now rewrite !updn_other by auto.
             - rewrite !updn_same. cbn. now rewrite R01.
             - rewrite updn_same. split; auto. split; [|split; auto].
               + destruct (s_cont s v b); [contradiction| |]; discriminate.
               + intros t' x Q. rewrite Q in HA. exact HA. }
           destruct (get_ref_proj t dirty i c3) as (_ & _ & _ & _ & _ & P6 & _).
           { unfold c3, c2; cbn. apply I1. }
           split; [rewrite P6; unfold c3, c2; cbn; lia|]. exists (got s v b t false dirty i). split; [|exact I2].
           apply S_get; auto. now rewrite HN.
           intros _ x Q M. pose proof (I_miss _ _ I1 v b Hv Hb UC1) as DM. rewrite Q in DM. cbn in DM. subst x.
           specialize (IV M). unfold isv, BufferIsValid in IV. rewrite M in IV.
           apply andb_prop in IV. destruct IV as [IV _]. apply andb_prop in IV. destruct IV as [IV1 IV2]. cbn [andb] in IV1.
           split; now apply N.eqb_eq.
Qed.

Lemma env_left c c1 c' : c_io c <= c_io c1 -> env_fail c1 c' -> env_fail c c'.
Proof. intros L [(n & H & O)|H]; [left; exists n; split; auto; lia | now right]. Qed.

Lemma to_idx c s v p a : Inv c s -> s_hand s p = Some a -> h_vol a = v ->
  BufferToIdx NB v p c = true /\ (p < NB)%nat /\ valid (c_head c p) /\ hd_vol (c_head c p) = v
  /\ hd_blk (c_head c p) = h_blk a /\ hd_ref (c_head c p) = h_cnt a /\ 0 < h_cnt a <= 255
  /\ (h_wr a = true -> hd_dirty (c_head c p) = true) /\ s_cont s v (h_blk a) <> Unknown.
Proof.
  intros I H E. destruct (held_idx c s p a I H) as [Hp HP]. unfold hand_ok in HP. rewrite H in HP.
  destruct HP as (H1 & H2 & H3 & H4 & H5 & H6 & H7). rewrite E in *.
  split; [|repeat split; auto; apply H5]. unfold BufferToIdx. rewrite (proj2 (Nat.ltb_lt _ _) Hp).
  rewrite (proj2 (N.eqb_neq _ _) H1), H2, N.eqb_refl. reflexivity.
Qed.
Lemma refd_true c i : hd_ref (c_head c i) <> 0 -> refd c i = true.
Proof. intros. unfold refd. now rewrite (proj2 (N.eqb_neq _ _)). Qed.
Lemma used_pos c s i : Inv c s -> (i < NB)%nat -> hd_ref (c_head c i) <> 0 -> 0 < c_used c.
Proof.
  intros I Hi R. rewrite (I_used _ _ I). pose proof (cnt_set (refd c) (updn (refd c) i false) NB i Hi) as Q.
  rewrite updn_same, (refd_true _ _ R) in Q. specialize (Q ltac:(intros; now apply updn_other)). lia.
Qed.
Lemma u16_dec n : 0 < n < 65536 -> u16 (n + 65535) = n - 1.
Proof.
  intros. unfold u16. replace (n + 65535) with (n - 1 + 1 * 65536) by lia. rewrite N.mod_add by lia. apply N.mod_small. lia.
Qed.
Lemma u8_dec n : 0 < n < 256 -> u8 (n + 255) = n - 1.
Proof.
  intros. unfold u8. replace (n + 255) with (n - 1 + 1 * 256) by lia. rewrite N.mod_add by lia. apply N.mod_small. lia.
Qed.
Lemma other_blk c s i j : Inv c s -> (i < NB)%nat -> (j < NB)%nat -> j <> i -> valid (c_head c j) ->
  ~ (hd_vol (c_head c j) = hd_vol (c_head c i) /\ hd_blk (c_head c j) = hd_blk (c_head c i)).
Proof. intros I Hi Hj N V [A B]. apply N. apply (I_uniq _ _ I); auto. Qed.

Lemma put_sim c s v p c' : Inv c s -> allowed BS NV bc s (CPut v p) -> RedBufferPut NB v p c = c' ->
  c_io c' = c_io c /\ exists s', sstep NB BS bc mounted seq0 (env_fail c c') s (CPut v p) ONone s' /\ Inv c' s'.
Proof.
  intros I (a & HA & Hv) <-. destruct (to_idx c s v p a I HA Hv) as (B & Hp & V & E1 & E2 & E3 & E4 & E5 & E6).
  unfold RedBufferPut. rewrite B. set (h := c_head c p) in *. rewrite E3. rewrite u8_dec by lia.
  set (c1 := set_head c p (with_ref h (h_cnt a - 1))).
  assert (IO : c_io (if h_cnt a - 1 =? 0 then set_used c1 (u16 (c_used c + 65535)) else c1) = c_io c)
    by (destruct (h_cnt a - 1 =? 0); reflexivity).
  split; [exact IO|]. eexists. split; [apply S_put; exact HA|].
  assert (PU : 0 < c_used c) by (apply (used_pos c s p I Hp); fold h; lia).
  pose proof (used_le _ _ I).
  set (c2 := if h_cnt a - 1 =? 0 then set_used c1 (u16 (c_used c + 65535)) else c1).
  assert (F1 : c_mru c2 = c_mru c) by (unfold c2; destruct (h_cnt a - 1 =? 0); reflexivity).
  assert (F2 : c_head c2 = updn (c_head c) p (with_ref h (h_cnt a - 1))) by (unfold c2; destruct (h_cnt a - 1 =? 0); reflexivity).
  assert (F3 : c_buf c2 = c_buf c) by (unfold c2; destruct (h_cnt a - 1 =? 0); reflexivity).
  assert (F4 : c_disk c2 = c_disk c) by (unfold c2; destruct (h_cnt a - 1 =? 0); reflexivity).
  assert (F5 : c_seq c2 = c_seq c) by (unfold c2; destruct (h_cnt a - 1 =? 0); reflexivity).
  assert (F6 : c_used c2 = if h_cnt a - 1 =? 0 then c_used c - 1 else c_used c).
  { unfold c2. destruct (h_cnt a - 1 =? 0); auto. cbn. apply u16_dec. clear - H PU HNB. lia. }
  clearbody c2. clear c1 IO.
  refine (Inv_one c s c2 _ p I Hp _ _ _ F4 F5 _ _ _ _ _ _ _ _).
  - rewrite F1. apply I.
  - intros j Nj. rewrite F2. now apply updn_other.
  - intros. now rewrite F3.
  - rewrite F3. now apply I.
  - rewrite (refd_true c p) by (fold h; lia). rewrite F6. unfold refd. rewrite F2, updn_same. cbn [with_ref hd_ref].
    destruct (h_cnt a - 1 =? 0); cbn [negb]; lia.
  - rewrite F2, updn_same. intros _ j Hj Nj [Q1 Q2]. cbn [with_ref hd_vol hd_blk] in *. apply Nj.
    symmetry. apply (I_uniq _ _ I); auto.
  - rewrite F2, F3, updn_same. intros Vp. pose proof (I_head _ _ I p Hp V) as HH. fold h in HH.
    cbn [with_ref hd_vol hd_blk hd_type hd_dirty s_used s_pend s_cont]. destruct HH as (W1 & W2 & W3 & W4 & W5 & W6).
    do 5 (split; [auto|]). intros D. apply (disk_has_mono c); [rewrite F5; lia|now rewrite F4|auto].
  - intros; cbn; auto.
  - intros v' b' Hv' Hb' U. cbn [s_cont]. apply (I_miss _ _ I); auto. intros j Hj Q. apply (U j Hj). rewrite F2.
    destruct (updn_cases (c_head c) p (with_ref h (h_cnt a - 1)) j) as [[Z ->]|[_ ->]]; auto. subst j. exact Q.
  - intros q Nq. cbn [s_hand]. now apply updn_other.
  - unfold hand_ok. cbn [s_hand s_cont]. rewrite F2, !updn_same.
    destruct (N.eqb_spec (h_cnt a) 1) as [Z|Z].
    + cbn [with_ref hd_ref]. lia.
    + cbn [h_vol h_blk h_cnt h_wr with_ref hd_vol hd_blk hd_ref hd_dirty]. rewrite Hv. repeat split; auto; try lia.
Qed.

Lemma dirty_sim c s v p c' : Inv c s -> allowed BS NV bc s (CDirty v p) -> RedBufferDirty NB v p c = c' ->
  c_io c' = c_io c /\ exists s', sstep NB BS bc mounted seq0 (env_fail c c') s (CDirty v p) ONone s' /\ Inv c' s'.
Proof.
  intros I (a & HA & Hv) <-. destruct (to_idx c s v p a I HA Hv) as (B & Hp & V & E1 & E2 & E3 & E4 & E5 & E6).
  unfold RedBufferDirty. rewrite B. set (h := c_head c p) in *.
  split; [reflexivity|]. eexists. split; [apply S_dirty; exact HA|].
  apply (fun s' => Inv_one c s (set_head c p (with_dirty h true)) s' p I Hp); cbn [set_head c_mru c_head c_buf c_used].
  - apply I.
  - intros j Nj. now apply updn_other.
  - auto.
  - reflexivity.
  - reflexivity.
  - now apply I.
  - unfold refd. cbn [set_head c_head]. rewrite updn_same. cbn [with_dirty hd_ref]. reflexivity.
  - rewrite updn_same. intros _ j Hj Nj [Q1 Q2]. cbn [with_dirty hd_vol hd_blk] in *. apply Nj.
    symmetry. apply (I_uniq _ _ I); auto.
  - rewrite updn_same. intros Vp. pose proof (I_head _ _ I p Hp V) as HH. fold h in HH.
    cbn [with_dirty hd_vol hd_blk hd_type hd_dirty s_used s_pend s_cont]. destruct HH as (W1 & W2 & W3 & W4 & W5 & W6).
    do 3 (split; [auto|]). split. { intros _. rewrite E1, E2. apply upd2_same. } split; [auto|]. discriminate.
  - intros j Hj Nj Vj. cbn [s_used s_pend s_cont]. split; auto. split; auto. apply upd2_other.
    rewrite <- E1, <- E2. apply (other_blk c s p j); auto.
  - intros v' b' Hv' Hb' U. cbn [s_cont]. apply (I_miss _ _ I); auto. intros j Hj Q. apply (U j Hj). cbn [set_head c_head].
    destruct (updn_cases (c_head c) p (with_dirty h true) j) as [[Z ->]|[_ ->]]; auto. subst j. exact Q.
  - intros q Nq. cbn [s_hand]. now apply updn_other.
  - unfold hand_ok. cbn [s_hand s_cont]. rewrite !updn_same.
    cbn [h_vol h_blk h_cnt h_wr with_dirty hd_vol hd_blk hd_ref hd_dirty]. repeat split; auto; try lia.
Qed.

Lemma branch_sim c s v p b' c' : Inv c s -> allowed BS NV bc s (CBranch v p b') -> RedBufferBranch NB bc v p b' c = c' ->
  c_io c' = c_io c /\ exists s', sstep NB BS bc mounted seq0 (env_fail c c') s (CBranch v p b') ONone s' /\ Inv c' s'.
Proof.
  intros I (a & HA & Hv & Hb' & HU & HP) <-. destruct (to_idx c s v p a I HA Hv) as (B & Hp & V & E1 & E2 & E3 & E4 & E5 & E6).
  pose proof (I_head _ _ I p Hp V) as HH. destruct HH as (W1 & W2 & W3 & W4 & W5 & W6).
  unfold RedBufferBranch. rewrite B, (proj2 (N.leb_gt _ _) Hb'). cbn [negb orb]. set (h := c_head c p) in *.
  rewrite E1, E2 in *. 
  assert (D : hd_dirty h = false). { destruct (hd_dirty h); auto. rewrite HP in W4. now discriminate W4. }
  assert (NU : forall j, (j < NB)%nat -> ~ (hd_vol (c_head c j) = v /\ hd_blk (c_head c j) = b')).
  { intros j Hj [Q1 Q2]. assert (VJ : valid (c_head c j)) by (unfold valid; rewrite Q2; eapply blk_valid; eauto).
    pose proof (I_head _ _ I j Hj VJ) as (_ & _ & X & _). rewrite Q1, Q2 in X. congruence. }
  assert (NE : h_blk a <> b') by (intros Q; apply (NU p Hp); split; [exact E1 | fold h; congruence]).
  split; [reflexivity|]. eexists. split; [apply S_branch; exact HA|].
  apply (fun s' => Inv_one c s (set_head c p (with_blk (with_dirty h true) b')) s' p I Hp); cbn [set_head c_mru c_head c_buf c_used].
  - apply I.
  - intros j Nj. now apply updn_other.
  - auto.
  - reflexivity.
  - reflexivity.
  - now apply I.
  - unfold refd. cbn [set_head c_head]. rewrite updn_same. cbn [with_blk with_dirty hd_ref]. reflexivity.
  - rewrite updn_same. intros _ j Hj Nj. cbn [with_blk with_dirty hd_vol hd_blk]. rewrite E1. now apply NU.
  - rewrite updn_same. intros Vp.
    cbn [with_blk with_dirty hd_vol hd_blk hd_type hd_dirty s_used s_pend s_cont]. rewrite E1, !upd2_same.
    do 5 (split; [auto|]). discriminate.
  - intros j Hj Nj Vj. cbn [s_used s_pend s_cont].
    rewrite !(upd2_other _ v b') by now apply NU.
    rewrite upd2_other. auto. rewrite <- E1 at 1. rewrite <- E2. apply (other_blk c s p j); auto.
  - intros v' x Hv' Hx U. cbn [s_cont].
    assert (NX : ~ (v' = v /\ x = b')).
    { intros [-> ->]. apply (U p Hp). cbn [set_head c_head]. rewrite updn_same. auto. }
    rewrite upd2_other by exact NX.
    destruct (N.eq_dec v' v) as [Q1|Q1]; [destruct (N.eq_dec x (h_blk a)) as [Q2|Q2]|].
    + subst. apply W6, D.
    + apply (I_miss _ _ I); auto. intros j Hj Q. apply (U j Hj). cbn [set_head c_head].
      rewrite updn_other; auto. intros ->. fold h in Q. destruct Q; congruence.
    + apply (I_miss _ _ I); auto. intros j Hj Q. apply (U j Hj). cbn [set_head c_head].
      rewrite updn_other; auto. intros ->. fold h in Q. destruct Q; congruence.
  - intros q Nq. cbn [s_hand]. now apply updn_other.
  - unfold hand_ok. cbn [s_hand s_cont]. rewrite !updn_same.
    cbn [h_vol h_blk h_cnt h_wr with_blk with_dirty hd_vol hd_blk hd_ref hd_dirty]. rewrite upd2_same.
    split; [eapply blk_valid; eauto|]. repeat split; auto; try lia.
Qed.

Lemma discard_sim c s v p c' : Inv c s -> allowed BS NV bc s (CDiscard v p) -> RedBufferDiscard NB v p c = c' ->
  c_io c' = c_io c /\ exists s', sstep NB BS bc mounted seq0 (env_fail c c') s (CDiscard v p) ONone s' /\ Inv c' s'.
Proof.
  intros I (a & HA & Hv & H1) <-. destruct (to_idx c s v p a I HA Hv) as (B & Hp & V & E1 & E2 & E3 & E4 & E5 & E6).
  pose proof (I_head _ _ I p Hp V) as HH. destruct HH as (W1 & W2 & W3 & W4 & W5 & W6).
  unfold RedBufferDiscard. rewrite B. set (h := c_head c p) in *.
  set (c1 := set_used _ _). destruct (MakeLRU_spec NB p c1) as (M & B1 & B2 & B3 & B4 & B5 & B6). { apply I. }
  set (c2 := BufferMakeLRU NB p c1) in *. clearbody c2.
  assert (PU : 0 < c_used c) by (apply (used_pos c s p I Hp); fold h; lia).
  pose proof (used_le _ _ I).
  assert (F6 : c_used c2 = c_used c - 1). { rewrite B1. unfold c1. cbn. apply u16_dec. clear - H PU HNB. lia. }
  assert (F2 : c_head c2 = updn (c_head c) p (with_blk (with_ref h 0) BBLK_INVALID)) by (rewrite B2; reflexivity).
  change (c_buf c1) with (c_buf c) in B3. change (c_disk c1) with (c_disk c) in B4. change (c_seq c1) with (c_seq c) in B5. change (c_io c1) with (c_io c) in B6.
  clear c1 B1 B2. rewrite E1, E2 in *.
  split; [exact B6|]. eexists. split; [apply S_discard; exact HA|].
  refine (Inv_one c s _ _ p I Hp M _ _ B4 B5 _ _ _ _ _ _ _ _).
  - intros j Nj. rewrite F2. now apply updn_other.
  - intros. now rewrite B3.
  - rewrite B3. now apply I.
  - rewrite (refd_true c p) by (fold h; lia). rewrite F6. unfold refd. rewrite F2, updn_same. cbn [with_blk with_ref hd_ref].
    change (0 =? 0) with true. cbn [negb]. lia.
  - rewrite F2, updn_same. intros X. now exfalso; apply X.
  - rewrite F2, updn_same. intros X. now exfalso; apply X.
  - intros j Hj Nj Vj. cbn [s_used s_pend s_cont].
    rewrite !upd2_other; auto; rewrite <- E1 at 1; rewrite <- E2; apply (other_blk c s p j); auto.
  - intros v' x Hv' Hx U. cbn [s_cont].
    destruct (N.eq_dec v' v) as [Q1|Q1]; [destruct (N.eq_dec x (h_blk a)) as [Q2|Q2]|].
    + subst v' x. rewrite upd2_same. destruct (s_pend s v (h_blk a)) eqn:PE; [exact Logic.I|].
      apply W6. destruct (hd_dirty h); auto. now discriminate W4.
    + rewrite upd2_other by tauto. apply (I_miss _ _ I); auto. intros j Hj Q. apply (U j Hj). rewrite F2.
      rewrite updn_other; auto. intros ->. fold h in Q. destruct Q; congruence.
    + rewrite upd2_other by tauto. apply (I_miss _ _ I); auto. intros j Hj Q. apply (U j Hj). rewrite F2.
      rewrite updn_other; auto. intros ->. fold h in Q. destruct Q; congruence.
  - intros q Nq. cbn [s_hand]. now apply updn_other.
  - unfold hand_ok. cbn [s_hand]. rewrite updn_same, F2, updn_same. reflexivity.
Qed.

(** ** ranges *)
Definition inr (v st n v' b' : N) : bool := (v' =? v) && (st <=? b') && (b' <? st + n).
Lemma updr_in {A} (f : N -> N -> A) v st n g v' b' : updr f v st n g v' b' = if inr v st n v' b' then g b' else f v' b'.
Proof. reflexivity. Qed.
Lemma bad_range_ok v st n : bad_range bc v st n = false <-> range_ok bc v st n.
Proof.
  unfold bad_range, range_ok. rewrite !orb_false_iff, N.leb_gt, N.ltb_ge, N.eqb_neq. tauto.
Qed.
Lemma bad_range_not v st n : bad_range bc v st n = true -> ~ range_ok bc v st n.
Proof. intros B R. apply bad_range_ok in R. congruence. Qed.
Lemma in_range_inr v st n h : v < NV -> range_ok bc v st n -> in_range v st n h = true <-> valid h /\ inr v st n (hd_vol h) (hd_blk h) = true.
Proof.
  intros Hv (R1 & R2 & R3). unfold in_range, inr, valid.
  assert (E : u32 (st + n) = st + n). { unfold u32. apply N.mod_small. pose proof (Hbc v Hv). unfold UINT32_MAX in *. lia. }
  rewrite E. rewrite !andb_true_iff, negb_true_iff, N.eqb_neq. tauto.
Qed.

Lemma clear_dirty c s i : Inv c s -> (i < NB)%nat -> valid (c_head c i) ->
  disk_has c (hd_vol (c_head c i)) (hd_blk (c_head c i)) (s_cont s (hd_vol (c_head c i)) (hd_blk (c_head c i))) ->
  (forall a, s_hand s i = Some a -> h_wr a = false) ->
  Inv (set_head c i (with_dirty (c_head c i) false)) s.
Proof.
  intros I Hi V DK HW. set (h := c_head c i) in *.
  apply (Inv_one c s (set_head c i (with_dirty h false)) s i I Hi); cbn [set_head c_mru c_head c_buf c_used].
  - apply I.
  - intros j Nj. now apply updn_other.
  - auto.
  - reflexivity.
  - reflexivity.
  - now apply I.
  - unfold refd. cbn [set_head c_head]. rewrite updn_same. reflexivity.
  - rewrite updn_same. intros _ j Hj Nj [Q1 Q2]. cbn [with_dirty hd_vol hd_blk] in *. apply Nj.
    symmetry. apply (I_uniq _ _ I); auto.
  - rewrite updn_same. intros _. pose proof (I_head _ _ I i Hi V) as HH. fold h in HH.
    cbn [with_dirty hd_vol hd_blk hd_type hd_dirty]. destruct HH as (W1 & W2 & W3 & W4 & W5 & W6).
    do 3 (split; [auto|]). split; [discriminate|]. split; auto.
  - auto.
  - intros v' b' Hv' Hb' U. apply (I_miss _ _ I); auto. intros j Hj Q. apply (U j Hj). cbn [set_head c_head].
    destruct (updn_cases (c_head c) i (with_dirty h false) j) as [[Z ->]|[_ ->]]; auto. subst j. exact Q.
  - auto.
  - rewrite updn_same. pose proof (I_hand _ _ I i Hi) as HH. fold h in HH. unfold hand_ok in *. destruct (s_hand s i) as [a|]; auto.
    destruct HH as (H1 & H2 & H3 & H4 & H5 & H6 & H7). cbn [with_dirty hd_vol hd_blk hd_ref hd_dirty].
    repeat split; auto; try lia. rewrite (HW a eq_refl). discriminate.
Qed.

Lemma flush_loop v st n s : v < NV -> range_ok bc v st n ->
  (forall p a, s_hand s p = Some a -> inr v st n (h_vol a) (h_blk a) = true -> h_wr a = false) ->
  forall k i c r c', (i + k = NB)%nat -> Inv c s ->
  (forall j, (j < i)%nat -> valid (c_head c j) -> inr v st n (hd_vol (c_head c j)) (hd_blk (c_head c j)) = true -> hd_dirty (c_head c j) = false) ->
  flush_from NB NV orc v st n k i c = (r, c') ->
  Inv c' s /\ c_io c <= c_io c'
  /\ match r with
     | Ok _ => forall j, (j < NB)%nat -> valid (c_head c' j) -> inr v st n (hd_vol (c_head c' j)) (hd_blk (c_head c' j)) = true -> hd_dirty (c_head c' j) = false
     | Err _ => env_fail c c'
     end.
Proof.
  intros Hv R HW. induction k; intros i c r c' Hk I DN E; cbn [flush_from] in E.
  - inversion E; subst. split; auto. split; [lia|]. intros j Hj. apply DN. lia.
  - assert (Hi : (i < NB)%nat) by lia.
    destruct (in_range v st n (c_head c i) && hd_dirty (c_head c i)) eqn:C.
    + apply andb_prop in C. destruct C as [C1 C2]. apply in_range_inr in C1; auto. destruct C1 as [V C1].
      destruct (BufferWrite NB NV orc i c) as [r1 c1] eqn:W.
      destruct (BufferWrite_spec i c s I Hi V C2 r1 c1 W) as (I1 & (SH1 & SH2 & SH3) & L1 & R1).
      destruct r1 as [u|e].
      * assert (I2 : Inv (set_head c1 i (with_dirty (c_head c1 i) false)) s).
        { rewrite <- SH3 in R1. apply clear_dirty; auto. now rewrite SH3.
          intros a Ha. apply (HW i a Ha). pose proof (I_hand _ _ I i Hi) as HH. unfold hand_ok in HH. rewrite Ha in HH.
          destruct HH as (_ & <- & <- & _). exact C1. }
        destruct (IHk (S i) _ r c' ltac:(lia) I2) as (A1 & A2 & A3); auto.
        { cbn [set_head c_head]. intros j Hj. destruct (updn_cases (c_head c1) i (with_dirty (c_head c1 i) false) j) as [[-> ->]|[Nj ->]]; auto.
          rewrite SH3. apply DN. lia. }
        cbn [set_head c_io] in A2. split; auto. split; [lia|].
        destruct r; auto. apply (env_left c c1 c'); auto.
      * inversion E; subst. auto.
    + apply (IHk (S i) c r c'); auto; try lia.
      intros j Hj Vj Rj. destruct (Nat.eq_dec j i) as [->|]; [|apply DN; auto; lia].
      apply andb_false_iff in C. destruct C as [C|C]; auto.
      assert (T : in_range v st n (c_head c i) = true) by (apply in_range_inr; auto). congruence.
Qed.

Lemma no_write_some hs v st n p a : no_write hs v st n p = Some a ->
  exists a0, hs p = Some a0 /\ h_vol a = h_vol a0 /\ h_blk a = h_blk a0 /\ h_cnt a = h_cnt a0
  /\ (h_wr a = true -> h_wr a0 = true) /\ (inr v st n (h_vol a) (h_blk a) = true -> h_wr a = false).
Proof.
  unfold no_write. destruct (hs p) as [a0|]; [|discriminate].
  destruct ((h_vol a0 =? v) && (st <=? h_blk a0) && (h_blk a0 <? st + n)) eqn:C; intros E; inversion E; subst; eexists; (split; [reflexivity|]); cbn; repeat split; auto; try discriminate.
  intros D. unfold inr in D. congruence.
Qed.
Lemma no_write_none hs v st n p : no_write hs v st n p = None -> hs p = None.
Proof. unfold no_write. destruct (hs p) as [a|]; auto. destruct (_ && _); discriminate. Qed.
Lemma Inv_nowrite c s v st n : Inv c s -> Inv c (mkSpec (s_cont s) (s_used s) (s_pend s) (no_write (s_hand s) v st n)).
Proof.
  intros I. constructor; try apply I.
  - intros p Hp. pose proof (I_hand _ _ I p Hp) as HH. unfold hand_ok in *. cbn [s_hand s_cont].
    destruct (no_write (s_hand s) v st n p) as [a|] eqn:E.
    + destruct (no_write_some _ _ _ _ _ _ E) as (a0 & F0 & F1 & F2 & F3 & F4 & F5). rewrite F0 in HH.
      rewrite F1, F2, F3. destruct HH as (H1 & H2 & H3 & H4 & H5 & H6 & H7). repeat split; auto; lia.
    + apply no_write_none in E. now rewrite E in HH.
  - intros p Hp. cbn [s_hand]. unfold no_write. now rewrite (I_out _ _ I p Hp).
Qed.
Lemma Inv_unpend c s v st n hs : Inv c (mkSpec (s_cont s) (s_used s) (s_pend s) hs) ->
  (forall j, (j < NB)%nat -> valid (c_head c j) -> inr v st n (hd_vol (c_head c j)) (hd_blk (c_head c j)) = true -> hd_dirty (c_head c j) = false) ->
  Inv c (mkSpec (s_cont s) (s_used s) (updr (s_pend s) v st n (fun _ => false)) hs).
Proof.
  intros I D. constructor; try apply I.
  intros i Hi V. pose proof (I_head _ _ I i Hi V) as (W1 & W2 & W3 & W4 & W5 & W6).
  cbn [s_cont s_used s_pend] in *. do 3 (split; [auto|]). split; [|auto].
  intros Q. rewrite updr_in. destruct (inr v st n (hd_vol (c_head c i)) (hd_blk (c_head c i))) eqn:C; auto.
  rewrite (D i Hi V C) in Q. discriminate.
Qed.

Lemma flush_core c s v st n r c' : Inv c s -> v < NV -> range_ok bc v st n ->
  RedBufferFlushRange NB NV bc orc v st n c = (r, c') ->
  c_io c <= c_io c' /\
  match r with
  | Ok _ => Inv c' (mkSpec (s_cont s) (s_used s) (updr (s_pend s) v st n (fun _ => false)) (no_write (s_hand s) v st n))
  | Err _ => env_fail c c' /\ Inv c' (mkSpec (s_cont s) (s_used s) (s_pend s) (no_write (s_hand s) v st n))
  end.
Proof.
  intros I Hv R E. unfold RedBufferFlushRange in E. rewrite (proj2 (bad_range_ok _ _ _) R) in E.
  assert (HW : forall p a, s_hand (mkSpec (s_cont s) (s_used s) (s_pend s) (no_write (s_hand s) v st n)) p = Some a ->
    inr v st n (h_vol a) (h_blk a) = true -> h_wr a = false).
  { cbn [s_hand]. intros p a Q. now destruct (no_write_some _ _ _ _ _ _ Q) as (a0 & _ & _ & _ & _ & _ & F). }
  destruct (flush_loop v st n _ Hv R HW NB 0%nat c r c' eq_refl (Inv_nowrite c s v st n I)) as (A1 & A2 & A3); auto.
  { intros j Hj. lia. }
  split; auto. destruct r; auto. now apply Inv_unpend.
Qed.

Lemma flush_sim c s v st n r c' : Inv c s -> v < NV -> RedBufferFlushRange NB NV bc orc v st n c = (r, c') ->
  c_io c <= c_io c' /\ exists s', sstep NB BS bc mounted seq0 (env_fail c c') s (CFlush v st n) (ODone r) s' /\ Inv c' s'.
Proof.
  intros I Hv E. destruct (bad_range bc v st n) eqn:B.
  - unfold RedBufferFlushRange in E. rewrite B in E. inversion E; subst. split; [lia|]. exists s. split; auto.
    constructor. now apply bad_range_not.
  - apply bad_range_ok in B. destruct (flush_core c s v st n r c' I Hv B E) as [L Q]. split; auto.
    destruct r as [[]|e].
    + eexists. split; [|exact Q]. now constructor.
    + destruct Q as [Q1 Q2]. eexists. split; [|exact Q2]. now constructor.
Qed.

Lemma disk_shows c v b k : disk_has c v b k -> shows k (c_disk c v b).
Proof. destruct k; cbn; auto. tauto. Qed.

Lemma nthN_map_seq {A} (f : nat -> A) n i d : i < n -> nthN (map f (seq 0 (N.to_nat n))) i d = f (N.to_nat i).
Proof.
  intros H. unfold nthN. rewrite (nth_indep _ d (f 0%nat)) by (rewrite map_length, seq_length; lia).
  rewrite map_nth. rewrite seq_nth by lia. reflexivity.
Qed.

Lemma dread_sim c s v st n r c' : Inv c s -> v < NV -> direct_read NB NV bc orc v st n c = (r, c') ->
  c_io c <= c_io c' /\ exists s', sstep NB BS bc mounted seq0 (env_fail c c') s (CDirectRead v st n) (ORead r) s' /\ Inv c' s'.
Proof.
  intros I Hv E. unfold direct_read in E. destruct (RedBufferFlushRange NB NV bc orc v st n c) as [r1 c1] eqn:F.
  destruct (bad_range bc v st n) eqn:B.
  - unfold RedBufferFlushRange in F. rewrite B in F. inversion F; subst. inversion E; subst. split; [lia|]. exists s. split; auto.
    constructor. now apply bad_range_not.
  - pose proof B as B0. apply bad_range_ok in B. destruct (flush_core c s v st n r1 c1 I Hv B F) as [L Q].
    destruct r1 as [[]|e].
    + unfold io_read_range in E. rewrite B0 in E. destruct (orc (c_io c1)) as [j|] eqn:O; inversion E; subst; clear E.
      * split; [cbn [tick c_io]; lia|]. eexists. split.
        -- apply S_dread_env; auto. apply (env_left c c1); auto. left. exists (c_io c1). cbn [tick c_io]. split; [lia|congruence].
        -- constructor; try apply Q. 
           intros i Hi V. pose proof (I_head _ _ Q i Hi V) as (W1 & W2 & W3 & W4 & W5 & W6). cbn [s_cont s_used s_pend tick c_head c_buf] in *.
           do 3 (split; [auto|]). split; [|auto]. intros D. specialize (W4 D). rewrite updr_in in W4.
           destruct (inr _ _ _ _ _) in W4; [discriminate|auto].
      * split; [cbn [tick c_io]; lia|]. eexists. split.
        -- apply S_dread; auto.
           ++ unfold lenN. rewrite map_length, seq_length. lia.
           ++ intros i Hi. rewrite nthN_map_seq by exact Hi. rewrite N2Nat.id.
              destruct B as (B1 & B2 & B3).
              assert (CD : disk_has c1 v (st + i) (s_cont s v (st + i))).
              { apply (clean_disk c1 (mkSpec (s_cont s) (s_used s) (updr (s_pend s) v st n (fun _ => false)) (no_write (s_hand s) v st n))); auto.
                - lia.
                - cbn [s_pend]. rewrite updr_in. unfold inr. rewrite N.eqb_refl.
                  rewrite (proj2 (N.leb_le _ _)), (proj2 (N.ltb_lt _ _)) by lia. reflexivity. }
              now apply disk_shows.
        -- constructor; apply Q.
    + destruct Q as [Q1 Q2]. inversion E; subst. split; auto. eexists. split; [|exact Q2]. now constructor.
Qed.

(** ** discarding ranges *)
Lemma discard_loop v st n s : v < NV -> range_ok bc v st n ->
  forall k i c r c', (i + k = NB)%nat -> Inv c s ->
  (forall j, (j < NB)%nat -> valid (c_head c j) -> inr v st n (hd_vol (c_head c j)) (hd_blk (c_head c j)) = true ->
     hd_ref (c_head c j) = 0 /\ disk_has c (hd_vol (c_head c j)) (hd_blk (c_head c j)) (s_cont s (hd_vol (c_head c j)) (hd_blk (c_head c j)))) ->
  (forall j, (j < i)%nat -> valid (c_head c j) -> inr v st n (hd_vol (c_head c j)) (hd_blk (c_head c j)) = false) ->
  discard_from NB v st n k i c = (r, c') ->
  r = Ok tt /\ Inv c' s /\ c_io c' = c_io c /\ c_disk c' = c_disk c /\ c_seq c' = c_seq c
  /\ forall j, (j < NB)%nat -> valid (c_head c' j) -> inr v st n (hd_vol (c_head c' j)) (hd_blk (c_head c' j)) = false.
Proof.
  intros Hv R. induction k; intros i c r c' Hk I CL DN E; cbn [discard_from] in E.
  - inversion E; subst. do 5 (split; [auto|]). intros j Hj. apply DN. lia.
  - assert (Hi : (i < NB)%nat) by lia.
    destruct (in_range v st n (c_head c i)) eqn:C.
    + apply in_range_inr in C; auto. destruct C as [V C]. destruct (CL i Hi V C) as [R0 DK].
      rewrite R0, N.eqb_refl in E. set (h := c_head c i) in *.
      set (c1 := set_head c i (with_blk h BBLK_INVALID)) in *.
      destruct (MakeLRU_spec NB i c1) as (M & B1 & B2 & B3 & B4 & B5 & B6). { apply I. }
      set (c2 := BufferMakeLRU NB i c1) in *. clearbody c2.
      assert (F2 : c_head c2 = updn (c_head c) i (with_blk h BBLK_INVALID)) by (rewrite B2; reflexivity).
      change (c_buf c1) with (c_buf c) in B3. change (c_disk c1) with (c_disk c) in B4. change (c_seq c1) with (c_seq c) in B5.
      change (c_io c1) with (c_io c) in B6. change (c_used c1) with (c_used c) in B1. clear c1 B2.
      assert (I2 : Inv c2 s).
      { apply (drop_one c s c2 i I Hi R0); auto.
        - intros j Nj. rewrite F2. now apply updn_other.
        - intros. now rewrite B3.
        - rewrite B3. now apply I.
        - rewrite F2. apply updn_same. }
      destruct (IHk (S i) c2 r c' ltac:(lia) I2) as (A1 & A2 & A3 & A4 & A5 & A6); auto.
      * intros j Hj. rewrite F2. destruct (updn_cases (c_head c) i (with_blk h BBLK_INVALID) j) as [[-> ->]|[Nj ->]].
        -- intros X. now exfalso; apply X.
        -- intros X Y. destruct (CL j Hj X Y) as [Z1 Z2]. split; auto. apply (disk_has_mono c); [rewrite B5; lia|now rewrite B4|exact Z2].
      * intros j Hj. rewrite F2. destruct (updn_cases (c_head c) i (with_blk h BBLK_INVALID) j) as [[-> ->]|[Nj ->]].
        -- intros X. now exfalso; apply X.
        -- apply DN. lia.
      * split; auto. split; auto. split; [congruence|]. split; [congruence|]. split; [congruence|]. exact A6.
    + apply (IHk (S i) c r c'); auto; try lia.
      intros j Hj Vj. destruct (Nat.eq_dec j i) as [->|]; [|apply DN; auto; lia].
      destruct (inr v st n (hd_vol (c_head c i)) (hd_blk (c_head c i))) eqn:C2; auto.
      assert (T : in_range v st n (c_head c i) = true) by (apply in_range_inr; auto). congruence.
Qed.

Lemma unheld_ref c s j v b : Inv c s -> (j < NB)%nat -> hd_vol (c_head c j) = v -> hd_blk (c_head c j) = b -> ~ held s v b ->
  hd_ref (c_head c j) = 0.
Proof.
  intros I Hj E1 E2 NH. pose proof (I_hand _ _ I j Hj) as HH. unfold hand_ok in HH. destruct (s_hand s j) as [a|] eqn:HS; auto.
  exfalso. apply NH. exists j, a. split; auto. destruct HH as (_ & A1 & A2 & _). split; congruence.
Qed.
Lemma inr_true v st n v' b' : inr v st n v' b' = true <-> v' = v /\ st <= b' < st + n.
Proof. unfold inr. rewrite !andb_true_iff, N.eqb_eq, N.leb_le, N.ltb_lt. tauto. Qed.

(** forgetting contents of unheld blocks *)
Lemma Inv_forget c s (K : N -> N -> cont) : Inv c s ->
  (forall v b, K v b = s_cont s v b \/ (K v b = Unknown /\ ~ held s v b)) ->
  Inv c (mkSpec K (s_used s) (s_pend s) (s_hand s)).
Proof.
  intros I HK. constructor; try apply I.
  - intros i Hi V. pose proof (I_head _ _ I i Hi V) as (W1 & W2 & W3 & W4 & W5 & W6). cbn [s_cont s_used s_pend].
    do 4 (split; [auto|]). destruct (HK (hd_vol (c_head c i)) (hd_blk (c_head c i))) as [->|[-> _]]; [auto|]. split; cbn; auto.
  - intros v b Hv Hb U. cbn [s_cont]. destruct (HK v b) as [->|[-> _]]; [|exact Logic.I]. now apply (I_miss _ _ I).
  - intros p Hp. pose proof (I_hand _ _ I p Hp) as HH. unfold hand_ok in *. cbn [s_hand s_cont]. destruct (s_hand s p) as [a|] eqn:HS; auto.
    destruct HH as (H1 & H2 & H3 & H4 & H5 & H6 & H7). repeat split; auto; try lia.
    destruct (HK (h_vol a) (h_blk a)) as [->|[_ NH]]; auto. exfalso. apply NH. exists p, a. repeat split; auto.
Qed.

Lemma drange_sim c s v st n r c' : Inv c s -> allowed BS NV bc s (CDiscardRange v st n) ->
  RedBufferDiscardRange NB bc v st n c = (r, c') ->
  c_io c' = c_io c /\ exists s', sstep NB BS bc mounted seq0 (env_fail c c') s (CDiscardRange v st n) (ODone r) s' /\ Inv c' s'.
Proof.
  intros I [Hv NH] E. unfold RedBufferDiscardRange in E. destruct (bad_range bc v st n) eqn:B.
  - inversion E; subst. split; [lia|]. exists s. split; auto. constructor. now apply bad_range_not.
  - apply bad_range_ok in B.
    set (K := updr (s_cont s) v st n (fun b => if s_pend s v b then Unknown else s_cont s v b)).
    assert (I1 : Inv c (mkSpec K (s_used s) (s_pend s) (s_hand s))).
    { apply Inv_forget; auto. intros v' b'. unfold K. rewrite updr_in. destruct (inr v st n v' b') eqn:C; auto.
      apply inr_true in C. destruct C as [-> C]. destruct (s_pend s v b'); auto. }
    destruct (discard_loop v st n _ Hv B NB 0%nat c r c' eq_refl I1) as (A1 & A2 & A3 & A4 & A5 & A6); auto.
    + intros j Hj V C. apply inr_true in C. destruct C as [C1 C2]. split.
      * apply (unheld_ref c s j v (hd_blk (c_head c j))); auto.
      * pose proof (I_head _ _ I j Hj V) as (W1 & W2 & W3 & W4 & W5 & W6). cbn [s_cont]. unfold K. rewrite updr_in.
        rewrite (proj2 (inr_true _ _ _ _ _)) by auto. rewrite <- C1. destruct (s_pend s (hd_vol (c_head c j)) (hd_blk (c_head c j))) eqn:PE; [exact Logic.I|].
        apply W6. destruct (hd_dirty (c_head c j)); auto. now discriminate W4.
    + intros j Hj. lia.
    + split; auto. subst r. eexists. split; [now constructor|]. fold K.
      constructor; try apply A2. cbn [s_cont s_used s_pend s_hand].
      intros i Hi V. pose proof (I_head _ _ A2 i Hi V) as (W1 & W2 & W3 & W4 & W5 & W6). specialize (A6 i Hi V).
      cbn [s_cont s_used s_pend] in *. rewrite !updr_in, A6. auto 10.
Qed.

Lemma dwrite_sim c s v st xs r c' : Inv c s -> allowed BS NV bc s (CDirectWrite v st xs) ->
  direct_write NB bc orc v st xs c = (r, c') ->
  c_io c <= c_io c' /\ exists s', sstep NB BS bc mounted seq0 (env_fail c c') s (CDirectWrite v st xs) (ODone r) s' /\ Inv c' s'.
Proof.
  intros I (Hv & XS & NH) E. unfold direct_write, io_write_range in E. destruct (bad_range bc v st (lenN xs)) eqn:B.
  - inversion E; subst. split; [lia|]. exists s. split; auto. constructor. now apply bad_range_not.
  - pose proof B as B0. apply bad_range_ok in B. set (n := lenN xs) in *.
    set (w := fun f => tick (mkCst (c_used c) (c_mru c) (c_head c) (c_buf c) (put_blocks (c_disk c) v st n f) (c_seq c) (c_io c))) in *.
    set (s1 := mkSpec (updr (s_cont s) v st n (fun _ => Unknown)) (s_used s) (s_pend s) (s_hand s)).
    assert (IU : Inv c s1).
    { apply Inv_forget; auto. intros v' b'. rewrite updr_in. destruct (inr v st n v' b') eqn:C; auto.
      apply inr_true in C. destruct C as [-> C]. auto. }
    assert (PB : forall f v' b', c_disk (w f) v' b' = if inr v st n v' b' then f b' else c_disk c v' b') by reflexivity.
    assert (IW : forall f, (forall b, st <= b < st + n -> blk_ok BS (f b)) -> Inv (w f) s1).
    { intros f Hf.
      assert (DM : forall v' b', disk_has c v' b' (s_cont s1 v' b') -> disk_has (w f) v' b' (s_cont s1 v' b')).
      { intros v' b'. unfold s1; cbn [s_cont]. rewrite updr_in. destruct (inr v st n v' b') eqn:C; auto.
        intros D. apply (disk_has_mono c); auto. apply N.le_refl. rewrite PB, C. reflexivity. }
      constructor; try apply IU.
      - intros i Hi V. pose proof (I_head _ _ IU i Hi V) as (W1 & W2 & W3 & W4 & W5 & W6). do 5 (split; [auto|]).
        intros D. apply DM. now apply W6.
      - intros v' b'. rewrite PB. destruct (inr v st n v' b') eqn:C; [|apply I]. apply Hf. now apply inr_true in C.
      - intros v' b' Hv' Hb' U. apply DM. apply (I_miss _ _ IU); auto. }
    destruct (orc (c_io c)) as [j|] eqn:O.
    + inversion E; subst; clear E. split; [unfold w; cbn [tick c_io]; lia|]. exists s1. split.
      * apply S_dwrite_env; auto. left. exists (c_io c). unfold w; cbn [tick c_io]. split; [lia|congruence].
      * apply IW. intros. eapply Horc; eauto.
    + change (tick (mkCst (c_used c) (c_mru c) (c_head c) (c_buf c) (put_blocks (c_disk c) v st n (fun b' => nthN xs (b' - st) [])) (c_seq c) (c_io c)))
        with (w (fun b' => nthN xs (b' - st) [])) in E.
      set (c1 := w (fun b' => nthN xs (b' - st) [])) in *.
      assert (I1 : Inv c1 s1).
      { apply IW. intros b Hb. rewrite Forall_forall in XS. apply XS. unfold nthN. apply nth_In. unfold n, lenN in Hb. lia. }
      unfold RedBufferDiscardRange in E. rewrite B0 in E.
      destruct (discard_loop v st n s1 Hv B NB 0%nat c1 r c' eq_refl I1) as (A1 & A2 & A3 & A4 & A5 & A6); auto.
      * intros k Hj V C. pose proof C as C0. apply inr_true in C. destruct C as [C1 C2]. split.
        -- apply (unheld_ref c s k v (hd_blk (c_head c k))); auto.
        -- unfold s1; cbn [s_cont]. rewrite updr_in, C0. exact Logic.I.
      * intros k Hj. lia.
      * split; [rewrite A3; unfold c1, w; cbn [tick c_io]; lia|]. subst r. eexists. split; [now constructor|]. fold n.
        constructor; try apply A2; cbn [s_cont s_used s_pend s_hand].
        -- intros i Hi V. pose proof (I_head _ _ A2 i Hi V) as (W1 & W2 & W3 & W4 & W5 & W6). specialize (A6 i Hi V).
           unfold s1 in *. cbn [s_cont s_used s_pend] in *. rewrite !updr_in, A6 in *. auto 10.
        -- intros v' b' Hv' Hb' U. rewrite updr_in. destruct (inr v st n v' b') eqn:C.
           ++ cbn [disk_has]. rewrite A4. unfold c1. rewrite PB, C. reflexivity.
           ++ pose proof (I_miss _ _ A2 v' b' Hv' Hb' U) as D. unfold s1 in D. cbn [s_cont] in D. now rewrite updr_in, C in D.
        -- intros p Hp. pose proof (I_hand _ _ A2 p Hp) as HH. unfold hand_ok, s1 in *. cbn [s_hand s_cont] in *.
           destruct (s_hand s p) as [a|] eqn:HS; auto.
           destruct HH as (H1 & H2 & H3 & H4 & H5 & H6 & H7). repeat split; auto; try lia.
           rewrite updr_in in *. destruct (inr v st n (h_vol a) (h_blk a)); auto.
Qed.

Lemma poke_sim c s p x : Inv c s -> allowed BS NV bc s (CPoke p x) ->
  exists s', sstep NB BS bc mounted seq0 (env_fail c (set_buf c p x)) s (CPoke p x) ONone s' /\ Inv (set_buf c p x) s'.
Proof.
  intros I (BX & a & HA & HW). destruct (to_idx c s _ p a I HA eq_refl) as (B & Hp & V & E1 & E2 & E3 & E4 & E5 & E6).
  specialize (E5 HW). pose proof (I_head _ _ I p Hp V) as (W1 & W2 & W3 & W4 & W5 & W6). rewrite E1, E2 in *.
  eexists. split; [eapply S_poke; exact HA|].
  assert (NK : poked (s_cont s (h_vol a) (h_blk a)) x <> Unknown) by (destruct (s_cont s (h_vol a) (h_blk a)); discriminate).
  apply (fun s' => Inv_one c s (set_buf c p x) s' p I Hp); cbn [set_buf c_mru c_head c_buf c_used c_disk c_seq]; auto.
  - apply I.
  - intros j Nj. now apply updn_other.
  - rewrite updn_same. exact BX.
  - intros _ j Hj Nj [Q1 Q2]. apply Nj. symmetry. apply (I_uniq _ _ I); auto.
  - rewrite updn_same. intros _. cbn [s_cont s_used s_pend]. rewrite E1, E2, upd2_same.
    do 4 (split; [auto|]). split; [|rewrite E5; discriminate].
    pose proof (I_buf _ _ I p Hp) as BP.
    destruct (s_cont s (h_vol a) (h_blk a)) as [|y|t y]; cbn in *; [congruence| |].
    + destruct W5. auto.
    + destruct W5 as (T1 & T2 & T3). repeat split; auto.
  - intros j Hj Nj Vj. cbn [s_cont s_used s_pend]. rewrite upd2_other; auto.
    rewrite <- E1 at 1. rewrite <- E2. apply (other_blk c s p j); auto.
  - intros v' b' Hv' Hb' U. cbn [s_cont].
    assert (NE : ~ (v' = h_vol a /\ b' = h_blk a)) by (intros [-> ->]; apply (U p Hp); cbn [set_buf c_head]; auto).
    rewrite upd2_other by exact NE. apply (I_miss _ _ I); auto.
  - pose proof (I_hand _ _ I p Hp) as HH. unfold hand_ok in *. cbn [s_hand s_cont]. rewrite HA in *.
    rewrite upd2_same. destruct HH as (H1 & H2 & H3 & H4 & H5 & H6 & H7). repeat split; auto; lia.
Qed.

Lemma peek_sim c s p : Inv c s -> allowed BS NV bc s (CPeek p) ->
  sstep NB BS bc mounted seq0 (env_fail c c) s (CPeek p) (OBytes (c_buf c p)) s.
Proof.
  intros I HA. cbn in HA. destruct (s_hand s p) as [a|] eqn:HS; [|congruence].
  destruct (to_idx c s _ p a I HS eq_refl) as (B & Hp & V & E1 & E2 & E3 & E4 & E5 & E6).
  pose proof (I_head _ _ I p Hp V) as (W1 & W2 & W3 & W4 & W5 & W6). rewrite E1, E2 in *.
  eapply S_peek; eauto. destruct (s_cont s (h_vol a) (h_blk a)); cbn in *; tauto.
Qed.

Lemma seq_sim c s v r c' : Inv c s -> v < NV -> RedVolSeqNumIncrement NV v c = (r, c') ->
  c_io c' = c_io c /\ sstep NB BS bc mounted seq0 (env_fail c c') s (CSeq v) (ODone r) s /\ Inv c' s.
Proof.
  intros I Hv E. unfold RedVolSeqNumIncrement in E. rewrite (proj2 (N.leb_gt _ _) Hv) in E.
  destruct (N.eqb_spec (c_seq c v) UINT64_MAX) as [Z|Z]; inversion E; subst; clear E.
  - split; auto. split; auto. constructor. right. right. eauto.
  - split; auto. split; [constructor; auto|].
    assert (SQ : forall v', c_seq c v' <= c_seq (set_seq c v (c_seq c v + 1)) v' <= UINT64_MAX).
    { intros v'. pose proof (I_seq _ _ I v'). cbn [set_seq c_seq]. unfold upd. destruct (N.eqb_spec v' v); subst; lia. }
    assert (DM : forall v' b' k, disk_has c v' b' k -> disk_has (set_seq c v (c_seq c v + 1)) v' b' k)
      by (intros v' b' k; apply disk_has_mono; [apply SQ | reflexivity]).
    constructor; try apply I.
    + intros i Hi V. pose proof (I_head _ _ I i Hi V) as (W1 & W2 & W3 & W4 & W5 & W6). do 5 (split; [auto|]). auto.
    + intros v'. pose proof (I_seq _ _ I v'). pose proof (SQ v'). lia.
    + intros v' b' Hv' Hb' U. apply DM. apply (I_miss _ _ I); auto.
Qed.

(** every command of a disciplined client does what uncached storage would do *)
Theorem exec_sim c s k o c' : Inv c s -> allowed BS NV bc s k ->
  exec NB BS NV bc mounted orc k c = (o, c') ->
  c_io c <= c_io c' /\
  exists s', sstep NB BS bc mounted seq0 (env_fail c c') s k o s' /\ Inv c' s'.
Proof.
  intros I A E. destruct k; cbn [exec] in E.
  - destruct (RedBufferGet NB BS NV bc mounted orc v b t new dirty c) as [r c1] eqn:G. inversion E; subst. eapply get_sim; eauto.
  - inversion E; subst. destruct (put_sim c s v p _ I A eq_refl) as [L H]. split; [lia|auto].
  - inversion E; subst. destruct (dirty_sim c s v p _ I A eq_refl) as [L H]. split; [lia|auto].
  - inversion E; subst. destruct (branch_sim c s v p b' _ I A eq_refl) as [L H]. split; [lia|auto].
  - inversion E; subst. destruct (discard_sim c s v p _ I A eq_refl) as [L H]. split; [lia|auto].
  - destruct (RedBufferFlushRange NB NV bc orc v st n c) as [r c1] eqn:G. inversion E; subst. eapply flush_sim; eauto.
  - destruct (RedBufferDiscardRange NB bc v st n c) as [r c1] eqn:G. inversion E; subst. destruct (drange_sim c s v st n r c' I A G) as [L H]. split; [lia|auto].
  - inversion E; subst. split; [lia|]. exists s. split; auto. now apply peek_sim.
  - inversion E; subst. split; [cbn; lia|]. now apply poke_sim.
  - destruct (direct_read NB NV bc orc v st n c) as [r c1] eqn:G. inversion E; subst. eapply dread_sim; eauto.
  - destruct (direct_write NB bc orc v st xs c) as [r c1] eqn:G. inversion E; subst. eapply dwrite_sim; eauto.
  - destruct (RedVolSeqNumIncrement NV v c) as [r c1] eqn:G. inversion E; subst. destruct (seq_sim c s v r c' I A G) as [L H]. split; [lia|eauto].
Qed.

Lemma init_inv disk sq : (forall v b, blk_ok BS (disk v b)) -> (forall v, sq v <= UINT64_MAX) -> (forall v, seq0 v = sq v) ->
  Inv (RedBufferInit NB BS disk sq) (spec0 disk).
Proof.
  intros D S Q. unfold RedBufferInit. constructor; cbn [c_mru c_head c_buf c_disk c_seq c_used s_cont s_used s_pend s_hand spec0]; auto.
  - split; [now rewrite map_length, seq_length|]. split.
    + apply NoDup_map_in; [|apply seq_NoDup]. intros x y Hx Hy. apply in_seq in Hx. apply in_seq in Hy. lia.
    + intros i Hi. apply in_map_iff in Hi. destruct Hi as (x & <- & Hx). apply in_seq in Hx. lia.
  - intros i j Hi Hj V. now exfalso; apply V.
  - intros i Hi V. now exfalso; apply V.
  - intros i Hi. split. apply repeat_length. apply Forall_forall. intros x Hx. apply repeat_spec in Hx. subst; lia.
  - intros v. rewrite Q. pose proof (S v). lia.
  - rewrite (cnt_ext _ (fun _ => false)) by reflexivity. clear. induction NB as [|m IH]; cbn [cnt]; [auto|]. rewrite <- IH. reflexivity.
  - intros v b _ _ _. reflexivity.
  - intros p Hp. reflexivity.
Qed.
End P.
