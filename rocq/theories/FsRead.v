(** Reading file data. *)
From Verif Require Import Base Count FsState FsImap FsInode FsData FsTree FsImapProof FsWp FsInv FsStep FsSeek FsBranch.
Ltac Zify.zify_post_hook ::= idtac.

Section Read.
Variable g : cfg.
Hypothesis OK : cfg_ok g.
Set Default Proof Using "OK".

(** byte [off] of inode j (ignoring the file size) *)
Definition fbyte (pm : pmap) (s : st) (j off : N) : N := blkc g pm s j (off / BS g) (off mod BS g).

Lemma BSp : 0 < BS g. Proof. apply OK. Qed.
Lemma blk_split l x : x < BS g -> (l * BS g + x) / BS g = l /\ (l * BS g + x) mod BS g = x.
Proof.
  intros H. split.
  - apply div_uniq with x; auto. lia.
  - apply mod_uniq with l; auto. lia.
Qed.
Lemma off_eq off : off = off / BS g * BS g + off mod BS g.
Proof. rewrite N.mul_comm. apply div_eq, OK. Qed.
Lemma off_ub off : off mod BS g < BS g. Proof. apply mod_ub, OK. Qed.
Lemma div_ub off n : off < n * BS g -> off / BS g < n.
Proof. intros H. pose proof (off_eq off). pose proof (off_ub off). pose proof BSp. nia. Qed.
Lemma div_le a b : a <= b -> a / BS g <= b / BS g.
Proof. intros. apply N.div_le_mono; auto. pose proof BSp. lia. Qed.
Lemma fbyte_at pm s j l x : x < BS g -> fbyte pm s j (l * BS g + x) = blkc g pm s j l x.
Proof. intros H. unfold fbyte. destruct (blk_split l x H) as [-> ->]. reflexivity. Qed.

Variable C0 : mroot.
Variable D0 : N -> blk.
Variable R0 : bool.
Notation Core := (Core g C0 D0 R0).

(** An inode is mounted and the volume is consistent. *)
Definition WK (L : N) (pm : pmap) (s : st) (c : cin) : Prop :=
  Core (c_ino c) (c_i c) L pm Dnone s /\ CM g s c /\ CW g pm c.

Lemma WK_csame L pm s c c' : WK L pm s c -> csame c c' -> CW g pm c' -> WK L pm s c'.
Proof.
  intros (K & M & W) SM W'. pose proof SM as (E1 & E2 & E3 & E4 & E5 & E6 & E7).
  split; [|split]; auto; [now rewrite E1, E4|eapply (csame_CM g OK); eauto].
Qed.

Lemma seek L pm s c l : WK L pm s c -> l < INODE_DATA_BLOCKS g ->
  exists c', SeekInode g l (s, c) = (if pm (c_ino c) (pT g l) =? 0 then Err ENODATA else Ok tt, (s, c')) /\
    csame c c' /\ CS g pm c' l /\ WK L pm s c'.
Proof.
  intros W Hl. pose proof W as (K & M & CWc).
  destruct (SeekInode_spec g OK C0 D0 R0 s c Dnone pm L l K M Hl) as (c' & R & SM & S); auto; try (intros []).
  - now apply (CW_pre g OK).
  - exists c'. sp; auto. eapply WK_csame; eauto. eapply (CS_CW g OK); eauto.
Qed.

Lemma ino_same c c' : csame c c' -> c_ino c' = c_ino c.
Proof. now intros (E & _). Qed.

Lemma ReadUnaligned_spec L pm s c start len :
  WK L pm s c -> 0 < len -> start / BS g = (start + len - 1) / BS g -> start / BS g < INODE_DATA_BLOCKS g ->
  exists d c', ReadUnaligned g start len (s, c) = (Ok d, (s, c')) /\ csame c c' /\ WK L pm s c' /\
    forall x, x < len -> d x = fbyte pm s (c_ino c) (start + x).
Proof.
  intros W H1 H2 H3. destruct (seek L pm s c (start / BS g) W H3) as (c' & R & SM & S & W').
  assert (POS : forall x, x < len -> (start + x) / BS g = start / BS g /\ (start + x) mod BS g = start mod BS g + x).
  { intros x Hx.
    pose proof (div_le start (start + x) ltac:(lia)). pose proof (div_le (start + x) (start + len - 1) ltac:(lia)).
    assert (E : (start + x) / BS g = start / BS g) by lia. split; auto.
    pose proof (off_eq start) as Q1. pose proof (off_eq (start + x)) as Q2. rewrite E in Q2. rewrite Q1 in Q2 at 1.
    revert Q2. clear. generalize (start / BS g * BS g), (start mod BS g), ((start + x) mod BS g). intros; lia. }
  assert (Dt : c_dat c' = pm (c_ino c) (pT g (start / BS g))) by (rewrite (s_dat _ _ _ _ S); now rewrite (ino_same _ _ SM)).
  unfold ReadUnaligned. rewrite <- H2, N.eqb_refl. cbn [negb].
  destruct (N.eqb_spec (pm (c_ino c) (pT g (start / BS g))) 0) as [Z|Z].
  - exists (fun _ => 0), c'. split.
    { unfold bind, attempt, RedInodeDataSeekAndRead, bind. rewrite R. reflexivity. }
    sp; auto. intros x Hx. destruct (POS x Hx) as [P1 P2]. unfold fbyte, blkc. rewrite P1, Z. reflexivity.
  - exists (fun x => data_of g (dk s (c_dat c')) (start mod BS g + x)), (cset_pb true c'). split.
    { unfold bind, attempt, RedInodeDataSeekAndRead, bind. rewrite R. reflexivity. }
    split; [|split].
    + eapply (csame_trans g OK); eauto. repeat split.
    + eapply WK_csame; eauto; [repeat split|]. destruct W' as (_ & _ & [[A1 A2 A3 A4] B]). split; [constructor; auto|auto].
      intros _. cbn. split; [apply S|]. split; [congruence|]. now rewrite (s_l _ _ _ _ S), (s_dat _ _ _ _ S).
    + intros x Hx. destruct (POS x Hx) as [P1 P2]. unfold fbyte, blkc. rewrite P1, P2, Dt.
      destruct (N.eqb_spec (pm (c_ino c) (pT g (start / BS g))) 0); [congruence|reflexivity].
Qed.

Lemma extent_loop_spec L pm s l first : forall n c run,
  WK L pm s c -> l + run + N.of_nat n <= INODE_DATA_BLOCKS g -> 1 <= run ->
  (forall k, k < run -> pm (c_ino c) (pT g (l + k)) = first + k) ->
  exists run' c', extent_loop g n l first run (s, c) = (Ok run', (s, c')) /\ csame c c' /\ WK L pm s c' /\
    run <= run' <= run + N.of_nat n /\ (forall k, k < run' -> pm (c_ino c) (pT g (l + k)) = first + k).
Proof.
  induction n; intros c run W HL Hr HP; cbn [extent_loop].
  - exists run, c. sp; auto; try lia. apply (csame_refl g OK).
  - destruct (seek L pm s c (l + run) W ltac:(lia)) as (c' & R & SM & S & W').
    pose proof (ino_same _ _ SM) as EI.
    unfold bind at 1, attempt at 1. rewrite R.
    destruct (N.eqb_spec (pm (c_ino c) (pT g (l + run))) 0) as [Z|Z].
    + exists run, c'. cbn [ret]. sp; auto; lia.
    + unfold bind at 1, getc at 1. cbn [snd].
      assert (Dt : c_dat c' = pm (c_ino c) (pT g (l + run))) by (rewrite (s_dat _ _ _ _ S); now rewrite EI).
      destruct (N.eqb_spec (c_dat c') (first + run)) as [E|E].
      * destruct (IHn c' (run + 1) W') as (run' & c'' & R' & SM' & W'' & B & P); try lia.
        { intros k Hk. rewrite EI. destruct (N.eq_dec k run) as [->|]; [congruence|]. apply HP. lia. }
        exists run', c''. sp; auto; try lia.
        -- eapply (csame_trans g OK); eauto.
        -- intros k Hk. rewrite <- EI. auto.
      * exists run, c'. cbn [ret]. sp; auto; lia.
Qed.

Lemma GetExtent_spec L pm s c l n :
  WK L pm s c -> 1 <= n -> l + n <= INODE_DATA_BLOCKS g ->
  exists c' r, GetExtent g l n (s, c) = (r, (s, c')) /\ csame c c' /\ WK L pm s c' /\
    if pm (c_ino c) (pT g l) =? 0 then r = Err ENODATA
    else exists run, r = Ok (pm (c_ino c) (pT g l), run) /\ 1 <= run <= n /\
      forall k, k < run -> pm (c_ino c) (pT g (l + k)) = pm (c_ino c) (pT g l) + k.
Proof.
  intros W Hn HL. destruct (seek L pm s c l W ltac:(lia)) as (c' & R & SM & S & W').
  pose proof (ino_same _ _ SM) as EI. unfold GetExtent. unfold bind at 1. rewrite R.
  destruct (N.eqb_spec (pm (c_ino c) (pT g l)) 0) as [Z|Z].
  - exists c', (Err ENODATA). sp; auto.
  - unfold bind at 1, getc at 1. cbn [snd]. rewrite (s_dat _ _ _ _ S), EI.
    destruct (extent_loop_spec L pm s l (pm (c_ino c) (pT g l)) (N.to_nat (n - 1)) c' 1 W') as (run & c'' & R' & SM' & W'' & B & P); try lia.
    { intros k Hk. replace k with 0 by lia. rewrite EI. now rewrite !N.add_0_r. }
    exists c'', (Ok (pm (c_ino c) (pT g l), run)). split; [|split; [|split]]; auto.
    + unfold bind. rewrite R'. reflexivity.
    + eapply (csame_trans g OK); eauto.
    + exists run. sp; auto; try lia. intros. rewrite <- EI at 1. auto.
Qed.


Lemma io_range_ok L pm D s i io j l b run : Core i io L pm D s -> 1 <= run -> b <> 0 ->
  (forall k, k < run -> pm j (pT g (l + k)) = b + k) -> io_range g b run = true.
Proof.
  intros K H Hb HP. unfold io_range.
  assert (R : FA g <= b + (run - 1) < BC g).
  { assert (X : pm j (pT g (l + (run - 1))) <> 0) by (rewrite HP; lia).
    pose proof (Core_blk OK K X) as (Y & _). rewrite HP in Y by lia. exact Y. }
  destruct (N.ltb_spec b (BC g)); [|lia]. destruct (N.leb_spec run (BC g - b)); [|lia]. destruct (N.eqb_spec run 0); [lia|]. reflexivity.
Qed.

Lemma read_aligned_spec L pm s l count : forall fuel c idx out,
  WK L pm s c -> l + count <= INODE_DATA_BLOCKS g -> count <= idx + N.of_nat fuel -> idx <= count ->
  exists out' c', read_aligned_loop g fuel l count idx out (s, c) = (Ok out', (s, c')) /\ csame c c' /\ WK L pm s c' /\
    forall x, x < count * BS g -> out' x = if x <? idx * BS g then out x else fbyte pm s (c_ino c) (l * BS g + x).
Proof.
  pose proof BSp as BP.
  induction fuel; intros c idx out W HL HF HI; cbn [read_aligned_loop];
    destruct (N.ltb_spec idx count) as [Hlt|Hge]; try lia;
    try (exists out, c; sp; auto; [apply (csame_refl g OK)|];
         intros x Hx; destruct (N.ltb_spec x (idx * BS g)); auto; exfalso; nia).
  destruct (GetExtent_spec L pm s c (l + idx) (count - idx) W) as (c' & r & R & SM & W' & HR); try lia.
  pose proof (ino_same _ _ SM) as EI.
  unfold bind at 1, attempt at 1. rewrite R.
  destruct (N.eqb_spec (pm (c_ino c) (pT g (l + idx))) 0) as [Z|Z].
  - subst r. destruct (IHfuel c' (idx + 1) (put_bytes (idx * BS g) (BS g) (fun _ => 0) out) W') as (out' & c'' & R' & SM' & W'' & P); try lia.
    exists out', c''. split; [exact R'|]. sp; auto; [eapply (csame_trans g OK); eauto|].
    intros x Hx. rewrite P by auto. rewrite EI. unfold put_bytes, copyin.
    destruct (N.ltb_spec x ((idx + 1) * BS g)) as [X1|X1]; destruct (N.ltb_spec x (idx * BS g)) as [X2|X2]; try nia; auto.
    + destruct (N.leb_spec (idx * BS g) x); [lia|]. reflexivity.
    + destruct (N.leb_spec (idx * BS g) x); [|lia]. destruct (N.ltb_spec x (idx * BS g + BS g)); [|nia]. cbn [andb].
      replace (l * BS g + x) with ((l + idx) * BS g + (x - idx * BS g)) by nia.
      rewrite fbyte_at by lia. unfold blkc. now rewrite Z.
  - destruct HR as (run & -> & Hrun & HP).
    rewrite (io_range_ok L pm Dnone s (c_ino c) (c_i c) (c_ino c) (l + idx) _ run); auto; [|apply W|lia].
    unfold bind at 1, lift at 1, gets at 1. cbn [fst snd].
    set (src := fun x => data_of g (dk s (pm (c_ino c) (pT g (l + idx)) + x / BS g)) (x mod BS g)).
    destruct (IHfuel c' (idx + run) (put_bytes (idx * BS g) (run * BS g) src out) W') as (out' & c'' & R' & SM' & W'' & P); try lia.
    exists out', c''. split; [exact R'|]. sp; auto; [eapply (csame_trans g OK); eauto|].
    intros x Hx. rewrite P by auto. rewrite EI. unfold put_bytes, copyin.
    destruct (N.ltb_spec x ((idx + run) * BS g)) as [X1|X1]; destruct (N.ltb_spec x (idx * BS g)) as [X2|X2]; try nia; auto.
    + destruct (N.leb_spec (idx * BS g) x); [lia|]. reflexivity.
    + destruct (N.leb_spec (idx * BS g) x); [|lia]. destruct (N.ltb_spec x (idx * BS g + run * BS g)); [|nia]. cbn [andb].
      set (y := x - idx * BS g). pose proof (off_eq y) as Ey. pose proof (off_ub y) as Uy.
      assert (Hq : y / BS g < run) by (apply div_ub; unfold y; nia).
      replace (l * BS g + x) with ((l + idx + y / BS g) * BS g + y mod BS g).
      2: { rewrite !N.mul_add_distr_r. unfold y in *. lia. }
      rewrite fbyte_at by auto. unfold blkc, src. rewrite HP by auto.
      destruct (N.eqb_spec (pm (c_ino c) (pT g (l + idx)) + y / BS g) 0); [exfalso; apply N.eq_add_0 in e; tauto|reflexivity].
Qed.

Lemma Core_size L pm D s i io : Core i io L pm D s -> i_size io <= INODE_SIZE_MAX g.
Proof. intros K. destruct (k_lim0 K). lia. Qed.

Lemma RedInodeDataRead_spec L pm s c start len :
  WK L pm s c ->
  exists f c', RedInodeDataRead g start len (s, c) =
     (Ok (if i_size (c_i c) <=? start then 0 else N.min len (i_size (c_i c) - start), f), (s, c')) /\
   csame c c' /\ WK L pm s c' /\
   forall x, x < len -> start + x < i_size (c_i c) -> f x = fbyte pm s (c_ino c) (start + x).
Proof.
  intros W. pose proof BSp as BP. pose proof W as (K & M & _).
  pose proof (Core_size _ _ _ _ _ _ K) as SZ. unfold INODE_SIZE_MAX in SZ. set (size := i_size (c_i c)) in *.
  unfold RedInodeDataRead. unfold bind at 1, getc at 1. cbn [snd]. rewrite (CM_mounted g OK _ _ M). cbn [negb]. fold size.
  destruct (N.leb_spec size start) as [H1|H1].
  { exists (fun _ => 0), c. sp; auto; [apply (csame_refl g OK)|lia]. }
  destruct (N.eqb_spec len 0) as [H2|H2].
  { exists (fun _ => 0), c. rewrite H2. sp; auto; [rewrite N.min_0_l; reflexivity|apply (csame_refl g OK)|lia]. }
  set (n := if size - start <? len then size - start else len).
  assert (En : n = N.min len (size - start)) by (unfold n; destruct (N.ltb_spec (size - start) len); lia).
  rewrite <- En. assert (Hn : 0 < n /\ start + n <= size) by lia. clearbody n.
  assert (GOAL : exists f c', (let len0 := n in
      '(idx, out) <- (if start mod BS g =? 0 then ret (0, fun _ => 0)
          else let n := N.min len0 (BS g - start mod BS g) in
               d <- ReadUnaligned g start n ;;
               ret (n, put_bytes 0 n d (fun _ => 0))) ;;
  '(idx, out) <- (if BS g <=? len0 - idx then
            let cnt := (len0 - idx) / BS g in
            d <- ReadAligned g ((start + idx) / BS g) cnt ;;
            ret (idx + cnt * BS g, put_bytes idx (cnt * BS g) d out)
          else ret (idx, out)) ;;
  out <- (if 0 <? len0 - idx then
            d <- ReadUnaligned g (start + idx) (len0 - idx) ;;
            ret (put_bytes idx (len0 - idx) d out)
          else ret out) ;;
  ret (len0, out)) (s, c) = (Ok (n, f), (s, c')) /\ csame c c' /\ WK L pm s c' /\
    forall x, x < n -> f x = fbyte pm s (c_ino c) (start + x)).
  2: { destruct GOAL as (f & c' & R & SM & W' & P). exists f, c'. sp; auto. intros. apply P. lia. }
  cbv zeta.
  (* head *)
  assert (S1 : exists idx out c1, (if start mod BS g =? 0 then ret (0, fun _ => 0)
          else d <- ReadUnaligned g start (N.min n (BS g - start mod BS g)) ;;
               ret (N.min n (BS g - start mod BS g), put_bytes 0 (N.min n (BS g - start mod BS g)) d (fun _ => 0))) (s, c)
      = (Ok (idx, out), (s, c1)) /\ csame c c1 /\ WK L pm s c1 /\ idx <= n /\
      ((start + idx) mod BS g = 0 \/ idx = n) /\
      forall x, x < idx -> out x = fbyte pm s (c_ino c) (start + x)).
  { pose proof (off_eq start) as E. pose proof (off_ub start) as U.
    destruct (N.eqb_spec (start mod BS g) 0) as [Z|Z].
    - exists 0, (fun _ => 0), c. sp; auto; try lia. apply (csame_refl g OK). left. now rewrite N.add_0_r.
    - set (k := N.min n (BS g - start mod BS g)).
      assert (Ek : start / BS g = (start + k - 1) / BS g).
      { symmetry. apply div_uniq with (start mod BS g + k - 1); [unfold k; lia|]. unfold k; lia. }
      destruct (ReadUnaligned_spec L pm s c start k W) as (d & c1 & R & SM & W1 & P); auto.
      { unfold k; lia. }
      { apply div_ub. lia. }
      exists k, (put_bytes 0 k d (fun _ => 0)), c1. split; [unfold bind; rewrite R; reflexivity|]. sp; auto.
      + unfold k; lia.
      + destruct (N.le_gt_cases n (BS g - start mod BS g)); [right; unfold k; lia|left].
        apply mod_uniq with (start / BS g + 1); [lia|]. unfold k. lia.
      + intros x Hx. unfold put_bytes, copyin. destruct (N.leb_spec 0 x); [|lia].
        destruct (N.ltb_spec x (0 + k)); [|lia]. cbn [andb]. rewrite N.sub_0_r. auto. }
  destruct S1 as (idx & out & c1 & R1 & SM1 & W1 & I1 & A1 & P1).
  unfold bind at 1. rewrite R1. clear R1. pose proof (ino_same _ _ SM1) as EI1.
  (* middle *)
  assert (S2 : exists idx2 out2 c2, (if BS g <=? n - idx then
            d <- ReadAligned g ((start + idx) / BS g) ((n - idx) / BS g) ;;
            ret (idx + (n - idx) / BS g * BS g, put_bytes idx ((n - idx) / BS g * BS g) d out)
          else ret (idx, out)) (s, c1) = (Ok (idx2, out2), (s, c2)) /\ csame c c2 /\ WK L pm s c2 /\ idx2 <= n /\
      (idx2 = n \/ (n - idx2 < BS g /\ (start + idx2) mod BS g = 0)) /\
      forall x, x < idx2 -> out2 x = fbyte pm s (c_ino c) (start + x)).
  { destruct (N.leb_spec (BS g) (n - idx)) as [H|H].
    - assert (AL : (start + idx) mod BS g = 0) by (destruct A1; auto; lia).
      pose proof (off_eq (start + idx)) as E. rewrite AL in E.
      pose proof (off_eq (n - idx)) as E'. pose proof (off_ub (n - idx)) as U'.
      set (l := (start + idx) / BS g) in *. set (cnt := (n - idx) / BS g) in *.
      assert (Hlc : l + cnt <= INODE_DATA_BLOCKS g).
      { assert ((l + cnt) * BS g <= INODE_DATA_BLOCKS g * BS g) by (rewrite N.mul_add_distr_r; lia). nia. }
      destruct (read_aligned_spec L pm s l cnt (N.to_nat cnt) c1 0 (fun _ => 0) W1) as (d & c2 & R & SM2 & W2 & P2); auto; try lia.
      exists (idx + cnt * BS g), (put_bytes idx (cnt * BS g) d out), c2.
      split; [unfold ReadAligned, bind; rewrite R; reflexivity|].
      split; [eapply (csame_trans g OK); eauto|]. split; auto. split; [lia|]. split.
      + destruct (N.eq_dec ((n - idx) mod BS g) 0); [left; lia|right]. split; [lia|].
        apply mod_uniq with (l + cnt); [lia|]. rewrite N.mul_add_distr_l. lia.
      + intros x Hx. unfold put_bytes, copyin. destruct (N.leb_spec idx x) as [X|X].
        * destruct (N.ltb_spec x (idx + cnt * BS g)); [|lia]. cbn [andb]. rewrite P2 by lia.
          destruct (N.ltb_spec (x - idx) (0 * BS g)); [lia|]. rewrite EI1. f_equal. lia.
        * cbn [andb]. auto.
    - exists idx, out, c1. sp; auto. destruct A1; [right; split; auto; lia|auto]. }
  destruct S2 as (idx2 & out2 & c2 & R2 & SM2 & W2 & I2 & A2 & P2).
  unfold bind at 1. rewrite R2. clear R2. pose proof (ino_same _ _ SM2) as EI2.
  (* tail *)
  destruct (N.ltb_spec 0 (n - idx2)) as [H|H].
  - destruct A2 as [->|[A2 A3]]; [lia|].
    pose proof (off_eq (start + idx2)) as E. rewrite A3 in E.
    destruct (ReadUnaligned_spec L pm s c2 (start + idx2) (n - idx2) W2) as (d & c3 & R & SM3 & W3 & P3); auto.
    { symmetry. apply div_uniq with (n - idx2 - 1); lia. }
    { apply div_ub. lia. }
    exists (put_bytes idx2 (n - idx2) d out2), c3.
    split; [unfold bind; rewrite R; reflexivity|]. split; [eapply (csame_trans g OK); eauto|]. split; auto.
    intros x Hx. unfold put_bytes, copyin. destruct (N.leb_spec idx2 x) as [X|X].
    + destruct (N.ltb_spec x (idx2 + (n - idx2))); [|lia]. cbn [andb]. rewrite P3 by lia. rewrite EI2. f_equal. lia.
    + cbn [andb]. auto.
  - exists out2, c2. sp; auto. intros x Hx. apply P2. lia.
Qed.
End Read.
