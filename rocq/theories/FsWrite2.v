(** RedInodeDataWrite. *)
From Verif Require Import Base Count FsState FsImap FsInode FsData FsTree FsImapProof FsWp FsInv FsStep FsSeek FsBranch FsRead FsWrite.
Ltac Zify.zify_post_hook ::= idtac.

Section Write2.
Variable g : cfg.
Hypothesis OK : cfg_ok g.
Set Default Proof Using "OK".

(** changes to the inode other than size, link count, mode, parent, entries and block count are impossible *)
Definition meta_but_size (a b : inode) : Prop :=
  i_dir b = i_dir a /\ i_nlink b = i_nlink a /\ i_pinode b = i_pinode a.

Variable C0 : mroot.
Variable D0 : N -> blk.
Variable R0 : bool.
Notation WS := (WS g C0 D0 R0).
Notation PWr := (PWr g C0 D0 R0).
Notation Core := (Core g C0 D0 R0).

(** Changing metadata fields of a dirty inode. *)
Lemma iset_WS L L' pm s c (f : inode -> inode) :
  WS L pm s c -> (forall io, i_ent (f io) = i_ent io) -> i_blocks (f (c_i c)) = i_blocks (c_i c) -> i_size (f (c_i c)) <= L' ->
  L <= L' <= INODE_SIZE_MAX g ->
  let s' := iset_st s c (f (c_i c)) in let c' := cset_i (f (c_i c)) c in
  WS L' pm s' c' /\ cid c c' /\ forall P, EF g (c_ino c) P pm s pm s'.
Proof.
  intros ((K & M & W) & Hd & HB) He Hb Hs HL s' c'.
  assert (K' : Core (c_ino c) (f (c_i c)) L' pm Dnone s').
  { eapply (iset_Core g OK) with (D := Dnone); [exact M|exact K| | |].
    - intros e Hx _. rewrite He. eapply ino_sync; [apply (k_rep K)|auto|intros []].
    - intros p [].
    - destruct (k_lim0 K) as [B1 B2 B3]. constructor; [|auto|apply HL]. intros p Hp. specialize (B1 p Hp). lia. }
  split; [|split].
  - split; [split; [exact K'|split]|split].
    + now apply (iset_CM g OK).
    + destruct W as [[A1 A2 A3 A4] B]. split; [constructor; auto|exact B].
    + exact Hd.
    + cbn. now rewrite Hb.
  - repeat split.
  - intros P. constructor; auto.
    + intros j m x Hm _. unfold blkc. destruct (N.eqb_spec (pm j (pT g m)) 0) as [|Hz]; auto.
      unfold s'. rewrite (iset_dk g OK); auto. destruct (Core_blk OK K Hz). pose proof (CM_blk g OK _ _ M). lia.
    + intros b Hbb. unfold s'. rewrite (iset_cur g OK). split; auto.
      destruct (N.eq_dec b (c_blk c)) as [->|Hn]; [left; apply M|right]. now apply (iset_dk g OK).
Qed.

Definition wok (start : N) (src : N -> N) (pm : pmap) (s : st) (c : cin) (n : N) (pm' : pmap) (s' : st) (c' : cin) : Prop :=
  WS (N.max (i_size (c_i c)) (start + n)) pm' s' c' /\
  i_size (c_i c') = N.max (i_size (c_i c)) (start + n) /\ meta_but_size (c_i c) (c_i c') /\
  cid c c' /\ EF g (c_ino c) anyb pm s pm' s' /\
  forall off, off < INODE_SIZE_MAX g ->
    vb g (i_size (c_i c')) pm' s' (c_ino c) off =
    if (start <=? off) && (off <? start + n) then src (off - start) else vb g (i_size (c_i c)) pm s (c_ino c) off.

Lemma write_fin start src pm s c n pm' s' c' : WS (i_size (c_i c)) pm s c ->
  0 < n -> start + n <= INODE_SIZE_MAX g -> PWr start src pm s c n pm' s' c' ->
  exists s2 c2, (c <- getc ;; (if i_size (c_i c) <? start + n then iset (iset_size (start + n)) else ret tt) ;;; ret n) (s', c') = (Ok n, (s2, c2)) /\
    wok start src pm s c n pm' s2 c2 /\ FreeBlockCount g s2 = FreeBlockCount g s'.
Proof.
  intros W0 Hn Hm (W & STx & BY). pose proof (ST_size g OK _ _ _ _ _ _ _ STx) as ES. pose proof (ST_ino g OK _ _ _ _ _ _ _ STx) as EI.
  pose proof (L_max g OK C0 D0 R0 _ _ _ _ W0) as SM.
  unfold Lw in W. destruct (N.eqb_spec n 0); [lia|]. destruct STx as (CI & MS & EFx).
  set (size := i_size (c_i c)) in *.
  assert (BYT : forall s2, (forall off, off < INODE_SIZE_MAX g -> fbyte g pm' s2 (c_ino c) off = fbyte g pm' s' (c_ino c) off) ->
     forall off, off < INODE_SIZE_MAX g ->
    vb g (N.max size (start + n)) pm' s2 (c_ino c) off =
    if (start <=? off) && (off <? start + n) then src (off - start) else vb g size pm s (c_ino c) off).
  { intros s2 Hs2 off Ho. unfold vb at 1. rewrite Hs2 by auto. destruct (BY off Ho) as [BY1 BY2].
    destruct (N.leb_spec start off), (N.ltb_spec off (start + n)); cbn [andb].
    - destruct (N.ltb_spec off (N.max size (start + n))); [|lia]. apply BY1. lia.
    - destruct (N.ltb_spec off (N.max size (start + n))).
      + apply BY2; lia.
      + unfold vb. destruct (N.ltb_spec off size); auto. lia.
    - destruct (N.ltb_spec off (N.max size (start + n))); [|lia]. apply BY2; lia.
    - lia. }
  unfold bind at 1, getc at 1. cbn [snd]. rewrite ES.
  destruct (N.ltb_spec size (start + n)) as [Hlt|Hge].
  - unfold bind at 1. rewrite (iset_run g OK). cbn [ret].
    destruct (iset_WS (N.max size (start + n)) (N.max size (start + n)) pm' s' c' (iset_size (start + n))) as (W2 & CI2 & EF2); auto; try (cbn; lia).
    exists (iset_st s' c' (iset_size (start + n) (c_i c'))), (cset_i (iset_size (start + n) (c_i c')) c').
    split; [reflexivity|]. split; [|unfold iset_st; now destruct (c_dirty c')].
    split; [exact W2|]. split; [|split; [|split; [|split]]].
    + cbn. lia.
    + destruct MS as (_ & ? & ? & ?). cbn. split; auto.
    + eapply (cid_trans g OK); eauto.
    + specialize (EF2 anyb). rewrite EI in EF2. eapply (EF_trans g OK); eauto.
    + cbn [cset_i c_i iset_size i_size]. assert (EZ : start + n = N.max size (start + n)) by lia. intros off Ho.
      cbn [i_size iset_size]. fold size. rewrite EZ at 1. apply BYT; auto. clear off Ho.
      intros off Ho. unfold fbyte. specialize (EF2 (fun _ => False)). rewrite EI in EF2. apply EF2; auto using (off_blk g OK).
  - exists s', c'. split; [reflexivity|]. split; [|reflexivity]. split; [exact W|]. split; [lia|]. destruct MS as (_ & ? & ? & ?).
    split; [split; auto|]. split; [exact CI|]. split; [exact EFx|]. rewrite ES.
    assert (EZ : N.max size (start + n) = size) by lia. intros off Ho. pose proof (BYT s' (fun _ _ => eq_refl) off Ho) as X. rewrite EZ in X. exact X.
Qed.

Definition rok (start len : N) (pm : pmap) (c : cin) : Prop :=
  R0 = true -> start <= i_size (c_i c) /\ len <= BS g /\ start / BS g = (start + len - 1) / BS g /\ pm (c_ino c) (pT g (start / BS g)) <> 0.

Lemma RedInodeDataWrite_spec pm s c start len src :
  WS (i_size (c_i c)) pm s c -> 0 < len -> start < INODE_SIZE_MAX g -> rok start len pm c ->
  (exists pm' s' c', RedInodeDataWrite g start len src (s, c) = (Err ENOSPC, (s', c')) /\
     WS (i_size (c_i c)) pm' s' c' /\ ST g anyb pm s c pm' s' c' /\ (FreeBlockCount g s' < MAXCOST g /\ (start <= i_size (c_i c) -> s' = s)) /\
     forall off, off < i_size (c_i c) -> fbyte g pm' s' (c_ino c) off = fbyte g pm s (c_ino c) off) \/
  exists n pm' s' c', RedInodeDataWrite g start len src (s, c) = (Ok n, (s', c')) /\
     0 < n <= N.min len (INODE_SIZE_MAX g - start) /\
     ((n < N.min len (INODE_SIZE_MAX g - start) -> FreeBlockCount g s' < MAXCOST g) /\ N.min (N.min len (INODE_SIZE_MAX g - start)) (BS g - start mod BS g) <= n) /\
     wok start src pm s c n pm' s' c'.
Proof.
  intros W Hlen Hst HR. pose proof W as ((K & M & CWc) & Hd & HB). pose proof (BSp g OK) as BP.
  set (size := i_size (c_i c)) in *. set (len' := N.min len (INODE_SIZE_MAX g - start)).
  pose proof (L_max g OK C0 D0 R0 _ _ _ _ W) as SM.
  (* phase 3 *)
  pose (fin := fun (idx : N) => (c <- getc ;; (if i_size (c_i c) <? start + idx then iset (iset_size (start + idx)) else ret tt) ;;; ret idx) : MC N).
  pose (ph3 := fun (idx rem : N) => (idx <- (if 0 <? rem then
            r <- attempt (WriteUnaligned g (start + idx) rem (fun x => src (idx + x))) ;;
            match r with
            | Ok _ => ret (idx + rem)
            | Err ENOSPC => ret idx
            | Err e => fail e
            end
          else ret idx) ;; fin idx) : MC N).
  pose (ph2 := fun (idx : N) => ('(idx, rem) <- (if BS g <=? len' - idx then
            let cnt := (len' - idx) / BS g in
            r <- attempt (WriteAligned g ((start + idx) / BS g) cnt (fun x => src (idx + x))) ;;
            match r with
            | Err ENOSPC => if 0 <? idx then ret (idx, 0) else fail ENOSPC
            | Err e => fail e
            | Ok w => ret (idx + w * BS g, if w <? cnt then 0 else len' - idx - w * BS g)
            end
          else ret (idx, len' - idx)) ;; ph3 idx rem) : MC N).
  pose (ph1 := (idx <- (if negb (start mod BS g =? 0) || (len' <? BS g) then
            let n := N.min len' (BS g - start mod BS g) in
            WriteUnaligned g start n src ;;; ret n
          else ret 0) ;; ph2 idx) : MC N).
  assert (RUN : RedInodeDataWrite g start len src (s, c) = ((if size <? start then ExpandPrepare g else ret tt) ;;; ph1) (s, c)).
  { unfold RedInodeDataWrite. unfold bind at 1, getc at 1. cbn [snd].
    rewrite (CM_isdirty g OK _ _ M), Hd. cbn [negb].
    destruct (N.ltb_spec (INODE_SIZE_MAX g) start); [lia|]. cbn [orb].
    destruct (N.eqb_spec start (INODE_SIZE_MAX g)); [lia|]. cbn [andb].
    destruct (N.eqb_spec len 0); [lia|].
    assert ((if INODE_SIZE_MAX g - start <? len then INODE_SIZE_MAX g - start else len) = len') as ->.
    { unfold len'. destruct (N.ltb_spec (INODE_SIZE_MAX g - start) len); lia. }
    reflexivity. }
  assert (Hl1 : 0 < len') by (unfold len'; lia).
  assert (Hl2 : start + len' <= INODE_SIZE_MAX g) by (unfold len'; lia).
  assert (Hl3 : len' <= len) by (unfold len'; lia).
  clearbody len'. set (fst_ := N.min len' (BS g - start mod BS g)).
  assert (FIN : forall idx pm' s' c', PWr start src pm s c idx pm' s' c' -> 0 < idx <= len' -> fst_ <= idx -> (idx < len' -> FreeBlockCount g s' < MAXCOST g) ->
    exists n pm' s2 c2, fin idx (s', c') = (Ok n, (s2, c2)) /\ 0 < n <= len' /\ ((n < len' -> FreeBlockCount g s2 < MAXCOST g) /\ fst_ <= n) /\
       wok start src pm s c n pm' s2 c2).
  { intros idx pm' s' c' PP Hi Hfs HF. destruct (write_fin start src pm s c idx pm' s' c') as (s2 & c2 & R & WO & FE); auto; try lia.
    exists idx, pm', s2, c2. split; [exact R|]. split; auto. split; auto. split; auto. now rewrite FE. }
  assert (P3 : forall idx rem pm' s' c', PWr start src pm s c idx pm' s' c' -> idx + rem <= len' -> fst_ <= idx ->
    (rem = 0 -> 0 < idx /\ (idx < len' -> FreeBlockCount g s' < MAXCOST g)) -> (0 < rem -> 0 < idx /\ idx + rem = len' /\ rem < BS g /\ (start + idx) mod BS g = 0 /\ R0 = false) ->
    exists n pm' s2 c2, ph3 idx rem (s', c') = (Ok n, (s2, c2)) /\ 0 < n <= len' /\ ((n < len' -> FreeBlockCount g s2 < MAXCOST g) /\ fst_ <= n) /\
       wok start src pm s c n pm' s2 c2).
  { intros idx rem pm' s' c' PP Hi Hfs H0 H1. unfold ph3. destruct (N.ltb_spec 0 rem) as [Hr|Hr].
    - destruct (H1 Hr) as (Hi0 & Hi1 & Hrb & Hmod & HR0).
      destruct (WU_step g OK C0 D0 R0 start src pm s c idx pm' s' c' rem PP Hr) as [(c2 & R & PP' & (F & _))|(pm2 & s2 & c2 & R & PP' & _)].
      + pose proof (off_eq g OK (start + idx)) as Q. symmetry. apply div_uniq with (rem - 1); [lia|]. rewrite Hmod in Q.
        rewrite N.mul_comm. revert Q Hr. clear. generalize ((start + idx) / BS g * BS g). intros; lia.
      + lia.
      + congruence.
      + destruct (FIN idx pm' s' c2 PP') as (n & pm3 & s3 & c3 & R3 & X); [lia|auto|auto|].
        exists n, pm3, s3, c3. split; [|exact X]. unfold bind at 1 2, attempt at 1. rewrite R. exact R3.
      + destruct (FIN (idx + rem) pm2 s2 c2 PP') as (n & pm3 & s3 & c3 & R3 & X); [lia|lia|lia|].
        exists n, pm3, s3, c3. split; [|exact X]. unfold bind at 1 2, attempt at 1. rewrite R. exact R3.
    - destruct H0 as [H0 H0']; [lia|]. destruct (FIN idx pm' s' c' PP) as (n & pm3 & s3 & c3 & R3 & X); [lia|auto|auto|].
      exists n, pm3, s3, c3. split; [exact R3|exact X]. }
  assert (ERR : forall pm' s' c' idx, idx = 0 -> PWr start src pm s c idx pm' s' c' -> FreeBlockCount g s' < MAXCOST g ->
     (start <= size -> s' = s) ->
     WS size pm' s' c' /\ ST g anyb pm s c pm' s' c' /\ (FreeBlockCount g s' < MAXCOST g /\ (start <= size -> s' = s)) /\
     forall off, off < size -> fbyte g pm' s' (c_ino c) off = fbyte g pm s (c_ino c) off).
  { intros pm' s' c' idx -> (W' & ST' & BY) F SE. split; [exact W'|]. split; [exact ST'|]. split; [split; [exact F|exact SE]|]. intros off Ho.
    destruct (BY off) as [_ B2]; [lia|]. rewrite B2; [|fold size; lia|lia]. unfold vb. fold size. destruct (N.ltb_spec off size); auto. lia. }
  assert (P2 : forall idx pm' s' c', PWr start src pm s c idx pm' s' c' -> idx <= len' -> (0 < idx -> fst_ <= idx) ->
    (idx < len' -> (start + idx) mod BS g = 0 /\ (R0 = true -> idx = 0 /\ len' = BS g /\ pm' (c_ino c) (pT g ((start + idx) / BS g)) <> 0)) -> (idx = 0 -> BS g <= len' /\ (start <= size -> s' = s)) ->
    (exists pm' s2 c2, ph2 idx (s', c') = (Err ENOSPC, (s2, c2)) /\ WS size pm' s2 c2 /\ ST g anyb pm s c pm' s2 c2 /\ (FreeBlockCount g s2 < MAXCOST g /\ (start <= size -> s2 = s)) /\
       forall off, off < size -> fbyte g pm' s2 (c_ino c) off = fbyte g pm s (c_ino c) off) \/
    exists n pm' s2 c2, ph2 idx (s', c') = (Ok n, (s2, c2)) /\ 0 < n <= len' /\ ((n < len' -> FreeBlockCount g s2 < MAXCOST g) /\ fst_ <= n) /\
       wok start src pm s c n pm' s2 c2).
  { intros idx pm' s' c' PP Hi Hfs Hlt Hz. unfold ph2. destruct (N.leb_spec (BS g) (len' - idx)) as [Hb|Hb].
    - cbv zeta. set (cnt := (len' - idx) / BS g).
      pose proof (off_eq g OK (len' - idx)) as Q. fold cnt in Q. pose proof (off_ub g OK (len' - idx)) as U.
      assert (Hc : 0 < cnt). { destruct (N.eq_dec cnt 0) as [E|]; [rewrite E in Q|]; lia. }
      destruct Hlt as [Hmod HR0]; [lia|].
      destruct (WA_step g OK C0 D0 R0 start src pm s c idx pm' s' c' cnt PP Hc Hmod) as [(c2 & R & PP' & F)|(w & pm2 & s2 & c2 & R & Hw & FW & PP')]; auto.
      { lia. }
      { intros E. destruct (HR0 E) as (X1 & X2 & X3). split; auto. subst idx. destruct (N.le_gt_cases cnt 1); auto.
        assert (2 * BS g <= cnt * BS g) by (apply N.mul_le_mono_r; lia). lia. }
      + destruct (N.ltb_spec 0 idx) as [Hi0|Hi0].
        * right. destruct (P3 idx 0 pm' s' c2 PP') as (n & pm3 & s3 & c3 & R3 & X); try lia.
          exists n, pm3, s3, c3. split; [|exact X]. unfold bind at 1 2, attempt at 1. rewrite R.
          replace (0 <? idx) with true by (symmetry; now apply N.ltb_lt). exact R3.
        * left. exists pm', s', c2. split; [|apply (ERR pm' s' c2 idx); auto; [lia|apply Hz; lia]].
          unfold bind at 1 2, attempt at 1. rewrite R. replace (0 <? idx) with false by (symmetry; now apply N.ltb_ge). reflexivity.
      + right. assert (Wp : 0 < w * BS g) by nia.
        assert (Wb : w * BS g <= cnt * BS g) by (apply N.mul_le_mono_r; lia).
        destruct (P3 (idx + w * BS g) (if w <? cnt then 0 else len' - idx - w * BS g) pm2 s2 c2 PP') as (n & pm3 & s3 & c3 & R3 & X).
        * destruct (w <? cnt); lia.
        * destruct (N.eq_dec idx 0) as [E|E]; [|specialize (Hfs ltac:(lia)); lia]. assert (1 * BS g <= w * BS g) by (apply N.mul_le_mono_r; lia). unfold fst_. lia.
        * intros E0. split; [lia|]. destruct (N.ltb_spec w cnt); [auto|lia].
        * destruct (N.ltb_spec w cnt) as [Hwc|Hwc]; [lia|]. assert (w = cnt) by lia. subst w. intros HRm.
          sp; auto; try lia; [|apply not_true_is_false; intros E; destruct (HR0 E) as (X1 & X2 & X3); assert (1 * BS g <= cnt * BS g) by (apply N.mul_le_mono_r; lia); subst idx; assert (len' - cnt * BS g = 0) by lia; lia]. replace (start + (idx + cnt * BS g)) with ((start + idx) + cnt * BS g) by lia.
          rewrite N.mod_add by lia. exact Hmod.
        * exists n, pm3, s3, c3. split; [|exact X]. unfold bind at 1 2, attempt at 1. rewrite R. exact R3.
    - right. assert (Hi0 : 0 < idx) by (destruct (N.eq_dec idx 0) as [E|]; [specialize (Hz E)|]; lia).
      destruct (P3 idx (len' - idx) pm' s' c' PP) as (n & pm3 & s3 & c3 & R3 & X); try lia.
      { intros Hx. destruct Hlt as [Hl_ Hr_]; [lia|]. sp; auto; try lia. apply not_true_is_false. intros E. destruct (Hr_ E); lia. }
      exists n, pm3, s3, c3. split; [exact R3|exact X]. }
  rewrite RUN. clear RUN.
  destruct (PWr_0 g OK C0 D0 R0 pm s c start src W) as [(c' & R & SMc & W' & F)|(pm' & s' & c' & R & PP & Same)].
  - left. fold size in R. exists pm, s, c'. split; [apply bind_err; exact R|]. split; [exact W'|]. split; [now apply (ST_csame g OK)|]. split; [split|]; auto.
  - fold size in R, Same.
    assert (RUN : ((if size <? start then ExpandPrepare g else ret tt) ;;; ph1) (s, c) = ph1 (s', c')).
    { apply bind_ok with (a := tt). exact R. }
    rewrite RUN. clear R RUN.
    destruct (negb (start mod BS g =? 0) || (len' <? BS g)) eqn:EC.
    + set (n := N.min len' (BS g - start mod BS g)) in *. pose proof (off_ub g OK start) as U.
      pose proof (off_eq g OK start) as Q.
      assert (Hn : 0 < n) by (unfold n; lia).
      destruct (WU_step g OK C0 D0 R0 start src pm s c 0 pm' s' c' n PP Hn) as [(c2 & R & PP' & (F & _))|(pm2 & s2 & c2 & R & PP' & _)].
      * rewrite N.add_0_r. symmetry. apply div_uniq with (start mod BS g + n - 1); [unfold n; lia|]. rewrite N.mul_comm. lia.
      * unfold n. lia.
      * intros E. destruct (HR E) as (A & _ & _ & B). rewrite N.add_0_r. destruct (Same A) as (-> & _). exact B.
      * rewrite N.add_0_r in R. left. exists pm', s', c2. split; [|apply (ERR pm' s' c2 0); auto; apply Same].
        unfold ph1, bind. change (fun x => src (0 + x)) with src in R. rewrite R. reflexivity.
      * rewrite N.add_0_r in R. change (fun x => src (0 + x)) with src in R.
        assert (RUN : ph1 (s', c') = ph2 n (s2, c2)) by (unfold ph1, bind; rewrite R; reflexivity).
        rewrite RUN. clear R RUN.
        apply (P2 _ pm2 s2 c2); auto; try (unfold n; lia).
        intros Hnl. assert (En : n = BS g - start mod BS g) by (unfold n in *; lia). split.
        -- rewrite En. replace (start + (BS g - start mod BS g)) with (0 + (start / BS g + 1) * BS g); [rewrite N.mod_add by lia; apply N.mod_0_l; lia|]. lia.
        -- intros ER. exfalso. destruct (HR ER) as (A1 & A2 & A3 & _).
           pose proof (inblk g OK start len Hlen A3). lia.
    + assert (RUN : ph1 (s', c') = ph2 0 (s', c')) by reflexivity.
      rewrite RUN. clear RUN. apply orb_false_iff in EC as [E1 E2]. apply negb_false_iff, N.eqb_eq in E1. apply N.ltb_ge in E2.
      apply (P2 0 pm' s' c'); auto; try lia; [|intros _; split; [lia|apply Same]].
      intros _. rewrite N.add_0_r. split; auto. intros ER. destruct (HR ER) as (A1 & A2 & A3 & A4). destruct (Same A1) as (-> & _). split; [|split]; [|lia|]; auto.
Qed.

(** Writing inside one block: all of it is written; afterwards the path to the block is new; and it
    is never refused (at or before the end of file) when that path was new before. *)
Lemma write_one pm s c start len src :
  WS (i_size (c_i c)) pm s c -> 0 < len -> start + len <= INODE_SIZE_MAX g -> start / BS g = (start + len - 1) / BS g -> rok start len pm c ->
  (exists pm' s' c', RedInodeDataWrite g start len src (s, c) = (Err ENOSPC, (s', c')) /\
     WS (i_size (c_i c)) pm' s' c' /\ ST g anyb pm s c pm' s' c' /\
     (FreeBlockCount g s' < MAXCOST g /\ (start <= i_size (c_i c) -> s' = s /\ ~ NewP g pm s (c_ino c) (start / BS g))) /\
     forall off, off < i_size (c_i c) -> fbyte g pm' s' (c_ino c) off = fbyte g pm s (c_ino c) off) \/
  exists pm' s' c', RedInodeDataWrite g start len src (s, c) = (Ok len, (s', c')) /\
     wok start src pm s c len pm' s' c' /\ NewP g pm' s' (c_ino c) (start / BS g).
Proof.
  intros W Hlen Hst Hb HR. pose proof W as ((K & M & CWc) & Hd & HB). pose proof (BSp g OK) as BP.
  set (size := i_size (c_i c)) in *. pose proof (inblk g OK start len Hlen Hb) as IB. pose proof (off_ub g OK start) as UB.
  pose proof (L_max g OK C0 D0 R0 _ _ _ _ W) as SM.
  pose (fin := fun (idx : N) => (c <- getc ;; (if i_size (c_i c) <? start + idx then iset (iset_size (start + idx)) else ret tt) ;;; ret idx) : MC N).
  (* the computation, for a block-confined write *)
  set (un := negb (start mod BS g =? 0) || (len <? BS g)).
  assert (UN : un = false -> start mod BS g = 0 /\ len = BS g).
  { unfold un. rewrite orb_false_iff, negb_false_iff, N.eqb_eq, N.ltb_ge. lia. }
  pose (body := (if un then WriteUnaligned g start len src else WriteAligned g (start / BS g) 1 src ;;; ret tt) : MC unit).
  assert (RUN : forall s' c', (if size <? start then ExpandPrepare g else ret tt) (s, c) = (Ok tt, (s', c')) ->
     (forall s2 c2, body (s', c') = (Ok tt, (s2, c2)) -> (un = false -> WriteAligned g (start / BS g) 1 src (s', c') = (Ok 1, (s2, c2))) ->
        RedInodeDataWrite g start len src (s, c) = fin len (s2, c2)) /\
     (forall s2 c2, body (s', c') = (Err ENOSPC, (s2, c2)) -> RedInodeDataWrite g start len src (s, c) = (Err ENOSPC, (s2, c2)))).
  { intros s' c' R.
    assert (Y : RedInodeDataWrite g start len src (s, c) =
      (idx <- (if un then (let n := N.min len (BS g - start mod BS g) in WriteUnaligned g start n src ;;; ret n) else ret 0) ;;
       '(idx, rem) <- (if BS g <=? len - idx then
            let cnt := (len - idx) / BS g in
            r <- attempt (WriteAligned g ((start + idx) / BS g) cnt (fun x => src (idx + x))) ;;
            match r with
            | Err ENOSPC => if 0 <? idx then ret (idx, 0) else fail ENOSPC
            | Err e => fail e
            | Ok w => ret (idx + w * BS g, if w <? cnt then 0 else len - idx - w * BS g)
            end
          else ret (idx, len - idx)) ;;
       idx <- (if 0 <? rem then
            r <- attempt (WriteUnaligned g (start + idx) rem (fun x => src (idx + x))) ;;
            match r with
            | Ok _ => ret (idx + rem)
            | Err ENOSPC => ret idx
            | Err e => fail e
            end
          else ret idx) ;; fin idx) (s', c')).
    { unfold RedInodeDataWrite. unfold bind at 1, getc at 1. cbn [snd].
      rewrite (CM_isdirty g OK _ _ M), Hd. cbn [negb].
      destruct (N.ltb_spec (INODE_SIZE_MAX g) start); [lia|]. cbn [orb].
      destruct (N.eqb_spec start (INODE_SIZE_MAX g)); [lia|]. cbn [andb].
      destruct (N.eqb_spec len 0); [lia|].
      assert ((if INODE_SIZE_MAX g - start <? len then INODE_SIZE_MAX g - start else len) = len) as ->.
      { destruct (N.ltb_spec (INODE_SIZE_MAX g - start) len); lia. }
      fold size. fold un. etransitivity; [apply bind_ok; exact R|]. reflexivity. }
    rewrite Y. clear Y. unfold body.
    destruct un eqn:EU.
    - cbv zeta. rewrite (N.min_l len) by lia. split; intros s2 c2 H.
      + intros _. unfold bind at 1 2. rewrite H. cbn [ret]. unfold bind at 1. replace (len - len) with 0 by lia. destruct (N.leb_spec (BS g) 0); [lia|].
        cbn [ret]. change (0 <? 0) with false. cbn iota. unfold bind at 1. cbn [ret]. reflexivity.
      + unfold bind at 1 2. rewrite H. reflexivity.
    - destruct (UN eq_refl) as [U1 U2].
      match goal with |- (forall s2 c2, _ -> _ -> ?X = _) /\ _ => assert (Y : X = ('(idx, rem) <- (r <- attempt (WriteAligned g (start / BS g) 1 src) ;;
            match r with
            | Err ENOSPC => fail ENOSPC
            | Err e => fail e
            | Ok w => ret (w * BS g, if w <? 1 then 0 else len - w * BS g)
            end) ;;
       idx <- (if 0 <? rem then
            r <- attempt (WriteUnaligned g (start + idx) rem (fun x => src (idx + x))) ;;
            match r with
            | Ok _ => ret (idx + rem)
            | Err ENOSPC => ret idx
            | Err e => fail e
            end
          else ret idx) ;; fin idx) (s', c')) end.
      { etransitivity; [apply bind_ok; reflexivity|]. cbv beta. rewrite N.sub_0_r, N.add_0_r. destruct (N.leb_spec (BS g) len); [|lia]. cbv zeta.
        assert (len / BS g = 1) as -> by (rewrite U2; apply N.div_same; lia). reflexivity. }
      rewrite Y. clear Y.
      split; intros s2 c2 H.
      + intros H1. specialize (H1 eq_refl). unfold bind at 1 2. rewrite (attempt_run _ _ _ _ H1). cbv beta iota. unfold ret at 1.
        change (1 <? 1) with false. cbn iota. rewrite N.mul_1_l, U2, N.sub_diag. change (0 <? 0) with false. cbn iota. unfold bind at 1, ret at 1.
        reflexivity.
      + assert (H1 : WriteAligned g (start / BS g) 1 src (s', c') = (Err ENOSPC, (s2, c2))).
        { revert H. unfold bind. destruct (WriteAligned g (start / BS g) 1 src (s', c')) as [[?|?] [? ?]]; [discriminate|]. intros X; injection X as -> -> ->; reflexivity. }
        unfold bind at 1 2. rewrite (attempt_run _ _ _ _ H1). reflexivity. }
  destruct (PWr_0 g OK C0 D0 R0 pm s c start src W) as [(c' & R & SMc & W' & F)|(pm' & s' & c' & R & PP & Same)].
  - fold size in R. destruct (N.ltb_spec size start) as [LT|GE]; [|discriminate].
    left. exists pm, s, c'. split; [|split; [exact W'|split; [now apply (ST_csame g OK)|split; [split; [exact F|lia]|auto]]]].
    unfold RedInodeDataWrite. unfold bind at 1, getc at 1. cbn [snd].
    rewrite (CM_isdirty g OK _ _ M), Hd. cbn [negb].
    destruct (N.ltb_spec (INODE_SIZE_MAX g) start); [lia|]. cbn [orb].
    destruct (N.eqb_spec start (INODE_SIZE_MAX g)); [lia|]. cbn [andb].
    destruct (N.eqb_spec len 0); [lia|]. fold size. cbv zeta. destruct (N.ltb_spec size start); [|lia]. apply bind_err. exact R.
  - fold size in R, Same. destruct (RUN s' c' R) as [RUN1 RUN2]. clear RUN. set (l := start / BS g) in *.
    assert (HR' : R0 = true -> pm' (c_ino c) (pT g l) <> 0).
    { intros E. destruct (HR E) as (A & _ & _ & B). destruct (Same A) as (-> & _). exact B. }
    assert (STEP : (exists c2, body (s', c') = (Err ENOSPC, (s', c2)) /\ PWr start src pm s c 0 pm' s' c2 /\ (FreeBlockCount g s' < MAXCOST g /\ ~ NewP g pm' s' (c_ino c) l)) \/
      exists pm2 s2 c2, body (s', c') = (Ok tt, (s2, c2)) /\ (un = false -> WriteAligned g l 1 src (s', c') = (Ok 1, (s2, c2))) /\
        PWr start src pm s c len pm2 s2 c2 /\ NewP g pm2 s2 (c_ino c) l).
    { unfold body. destruct un eqn:EU.
      - destruct (WU_step g OK C0 D0 R0 start src pm s c 0 pm' s' c' len PP Hlen) as [X|X]; try (rewrite N.add_0_r; auto; fail); rewrite ?N.add_0_r in X; fold l in X.
        + left. exact X.
        + right. destruct X as (pm2 & s2 & c2 & X1 & X2 & X3). exists pm2, s2, c2. split; [exact X1|]. split; [discriminate|]. auto.
      - destruct (UN eq_refl) as [U1 U2]. pose proof PP as (W' & STx & BY). pose proof (ST_ino g OK _ _ _ _ _ _ _ STx) as EI.
        assert (Hl : l < INODE_DATA_BLOCKS g) by (apply (off_blk g OK); lia).
        destruct (WA1_spec g OK C0 D0 R0 _ pm' s' c' l src W' Hl) as [(c2 & X1 & X2 & X3 & X4)|(pm2 & s2 & c2 & X1 & X2 & (X3 & X4) & X5)]; [now rewrite EI| |].
        + left. exists c2. rewrite EI in X4. split; [unfold bind; now rewrite X1|]. split; [|exact X4]. eapply (PWr_csame g OK); eauto.
        + right. exists pm2, s2, c2. rewrite EI in *. split; [unfold bind; now rewrite X1|]. split; [auto|]. split; [|exact X4].
          pose proof (off_eq g OK start) as Q. fold l in Q.
          change len with (0 + len). eapply (PWr_put g OK C0 D0 R0 start src pm s c 0 pm' s' c' len); rewrite ?N.add_0_r; auto.
          * replace (start + len) with ((l + 1) * BS g); [exact X2|]. rewrite U2, N.mul_add_distr_r. lia.
          * intros x Hx. fold l. rewrite X5. unfold copyin. rewrite U1. destruct (N.leb_spec 0 x); [|lia]. rewrite U2. destruct (N.ltb_spec x (0 + BS g)); [|lia]. cbn [andb]. f_equal. lia. }
    destruct STEP as [(c2 & B1 & B2 & F & NN)|(pm2 & s2 & c2 & B1 & B2 & B3 & NP)].
    + left. exists pm', s', c2. split; [now apply RUN2|]. pose proof B2 as (W' & ST' & BY). split; [exact W'|]. split; [exact ST'|]. split; [split; [exact F|]|].
      * intros A. destruct (Same A) as (-> & -> & _). auto.
      * intros off Ho. destruct (BY off) as [_ Z]; [lia|]. rewrite Z; [|fold size; lia|lia]. unfold vb. fold size. destruct (N.ltb_spec off size); auto. lia.
    + right. destruct (write_fin start src pm s c len pm2 s2 c2 W Hlen Hst B3) as (s3 & c3 & R3 & WO & _).
      exists pm2, s3, c3. split; [rewrite (RUN1 s2 c2 B1 B2); exact R3|]. split; [exact WO|].
      intros p Hp. destruct (NP p Hp) as [N1 N2]. split; auto. pose proof B3 as (W2 & _). destruct WO as (W3 & _). rewrite (com_eq g OK C0 D0 R0 _ _ _ _ _ _ _ _ _ W2 W3). exact N2.
Qed.

Lemma RedInodeDataWrite_0 L pm s c start src : WS L pm s c -> start <= INODE_SIZE_MAX g ->
  RedInodeDataWrite g start 0 src (s, c) = (Ok 0, (s, c)).
Proof.
  intros ((K & M & CWc) & Hd & HB) H. unfold RedInodeDataWrite. unfold bind at 1, getc at 1. cbn [snd].
  rewrite (CM_isdirty g OK _ _ M), Hd. cbn [negb].
  destruct (N.ltb_spec (INODE_SIZE_MAX g) start); [lia|]. cbn [orb]. rewrite andb_false_r. reflexivity.
Qed.
Lemma RedInodeDataWrite_big L pm s c start len src : WS L pm s c -> INODE_SIZE_MAX g < start \/ start = INODE_SIZE_MAX g /\ 0 < len ->
  RedInodeDataWrite g start len src (s, c) = (Err EFBIG, (s, c)).
Proof.
  intros ((K & M & CWc) & Hd & HB) H. unfold RedInodeDataWrite. unfold bind at 1, getc at 1. cbn [snd].
  rewrite (CM_isdirty g OK _ _ M), Hd. cbn [negb].
  destruct (N.ltb_spec (INODE_SIZE_MAX g) start); auto. cbn [orb].
  destruct (N.eqb_spec start (INODE_SIZE_MAX g)); [|lia]. destruct (N.ltb_spec 0 len); [|lia]. reflexivity.
Qed.
End Write2.
