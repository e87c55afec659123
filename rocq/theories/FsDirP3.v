(** Directories: writing and deleting entries. *)
From Verif Require Import Base Count FsState FsImap FsInode FsData FsTree FsImapProof FsWp FsInv FsStep FsSeek FsBranch FsRead FsWrite FsWrite2 FsVol FsVol2 FsVol3 FsVol4 FsDir FsDirP FsDirP2.
Ltac Zify.zify_post_hook ::= idtac.

Section DirP3.
Variable g : cfg.
Hypothesis OK : cfg_ok g.
Set Default Proof Using "OK".
Notation DS := (DIRENT_SIZE g).
Notation DPB := (DIRENTS_PER_BLOCK g).
Notation LM := (INODE_SIZE_MAX g).
Notation off := (DirEntryIndexToOffset g).
Notation dsize := (dsize g).
Notation DirRep := (DirRep g).
Notation FBC := (FreeBlockCount g).

Lemma valid32 i : INODE_IS_VALID g i = true -> 2 <= i < 4294967296.
Proof.
  unfold INODE_IS_VALID. rewrite andb_true_iff, N.leb_le, N.ltb_lt. unfold INODE_FIRST_VALID. pose proof (ok_FA g OK). pose proof (ok_BC32 g OK). pose proof (ok_ITAB g OK).
  unfold FA, UINT32_MAX in *. lia.
Qed.

Lemma nz32 i : 0 < i < 4294967296 -> exists x, x < 4 /\ le32 i x <> 0.
Proof.
  intros Q3. destruct (N.eq_dec (le32 i 0) 0) as [Z0|]; [|exists 0; split; [lia|auto]]. destruct (N.eq_dec (le32 i 1) 0) as [Z1|]; [|exists 1; split; [lia|auto]].
  destruct (N.eq_dec (le32 i 2) 0) as [Z2|]; [|exists 2; split; [lia|auto]]. destruct (N.eq_dec (le32 i 3) 0) as [Z3|]; [|exists 3; split; [lia|auto]].
  exfalso. assert (Z : get32 (fun _ => 0) 0 = i); [|unfold get32 in Z; lia]. apply (get32_le g OK); [lia|]. intros x Hx.
  assert (X : x = 0 \/ x = 1 \/ x = 2 \/ x = 3) by lia. destruct X as [->|[->|[->| ->]]]; congruence.
Qed.

Lemma entwrite_run s c idx ino nm : CINODE_IS_DIRTY g c = true -> c_dir c = true -> idx < DIRENTS_MAX g ->
  (nok g nm /\ INODE_IS_VALID g ino = true) \/ (nm = [] /\ ino = 0) ->
  DirEntryWrite g idx ino nm (s, c) = (RedInodeDataWrite g (off idx) DS (dirent ino nm) ;;; ret tt) (s, c).
Proof.
  intros HM HDir Hm HC. unfold DirEntryWrite. unfold bind at 1, getc at 1. cbn [snd]. rewrite HM, HDir. cbn [negb orb].
  destruct (N.leb_spec (DIRENTS_MAX g) idx) as [L|_]; [lia|]. cbn [orb].
  destruct HC as [((L & _) & C2)|(-> & ->)].
  - rewrite C2. cbn [negb andb orb]. destruct (N.ltb_spec (NMAX g) (nlen nm)) as [X|_]; [lia|]. cbn [orb]. pose proof (valid32 _ C2) as V2.
    destruct (N.eqb_spec (nlen nm) 0) as [X|_]; [lia|]. destruct (N.eqb_spec ino INODE_INVALID) as [X|_]; [unfold INODE_INVALID in *; lia|]. reflexivity.
  - pose proof (ok_NMAX g OK) as NM. assert (NL : nlen [] = 0) by reflexivity. rewrite NL. unfold INODE_INVALID. rewrite (N.eqb_refl 0). cbn [negb].
    rewrite andb_false_r. cbn [orb]. destruct (N.ltb_spec (NMAX g) 0) as [L|_]; [lia|]. reflexivity.
Qed.

(** The entry stored by a write. *)
Definition ent_of (ino : N) (nm : name) : option (name * N) := if ino =? 0 then None else Some (nm, ino).

Lemma DirRep_write a n ents idx ino nm : DirRep a n ents -> idx <= n -> idx < DIRENTS_MAX g ->
  (nok g nm /\ INODE_IS_VALID g ino = true /\ (forall k i, ents k = Some (nm, i) -> k = idx)) \/ (nm = [] /\ ino = 0 /\ idx + 1 < n) ->
  DirRep (awrite a (off idx) DS (dirent ino nm)) (N.max n (idx + 1)) (upd ents idx (ent_of ino nm)).
Proof.
  intros [R1 R2 R3 R4 R5 R6 R7] Hi Hm HC. pose proof (DS_ge g OK) as DG. pose proof (DS_pos g OK) as DP.
  assert (BY : forall k x, x < DS -> a_byte (awrite a (off idx) DS (dirent ino nm)) (off k + x) =
    if k =? idx then dirent ino nm x else if k <? n then a_byte a (off k + x) else a_byte (awrite a (off idx) DS (dirent ino nm)) (off k + x)).
  { intros k x Hx. unfold awrite. cbn [a_byte]. destruct (N.eqb_spec k idx) as [->|Hn].
    - destruct (N.leb_spec (off idx) (off idx + x)); [|lia]. destruct (N.ltb_spec (off idx + x) (off idx + DS)); [|lia]. cbn [andb]. f_equal. lia.
    - destruct (N.ltb_spec k n); [|reflexivity].
      destruct (N.leb_spec (off idx) (off k + x)) as [L1|]; [|reflexivity]. destruct (N.ltb_spec (off k + x) (off idx + DS)) as [L2|]; [|reflexivity].
      exfalso. apply (off_disj g OK k idx x (off k + x - off idx) Hn Hx); lia. }
  assert (GT : forall k, k <> idx -> k < n -> get32 (a_byte (awrite a (off idx) DS (dirent ino nm))) (off k) = get32 (a_byte a) (off k)).
  { intros k Hn Hk. apply (get32_ext g OK). intros x Hx. rewrite BY by lia. destruct (N.eqb_spec k idx); [congruence|]. destruct (N.ltb_spec k n); [auto|lia]. }
  constructor.
  - exact R1.
  - unfold awrite. cbn [a_size]. rewrite R2. destruct (N.eq_dec idx n) as [->|].
    + rewrite (N.max_r n) by lia. rewrite (dsize_S g OK). pose proof (dsize_le g OK n n ltac:(lia)). lia.
    + rewrite (N.max_l n) by lia. pose proof (dsize_lt g OK idx n ltac:(lia)). lia.
  - lia.
  - intros k Hk. unfold upd. destruct (N.eqb_spec k idx) as [->|Hn].
    + unfold ent_of. destruct (N.eqb_spec ino 0) as [->|]; [|discriminate]. intros _. apply (get32_le g OK); [lia|]. intros x Hx. rewrite BY by lia.
      rewrite N.eqb_refl. apply (dirent_ino g OK). auto.
    + intros E. rewrite GT; [apply R4; auto; lia|auto|lia].
  - intros k nm' i'. unfold upd. destruct (N.eqb_spec k idx) as [->|Hn].
    + unfold ent_of. destruct (N.eqb_spec ino 0) as [|Z]; [discriminate|]. intros X. injection X as <- <-.
      destruct HC as [(C1 & C2 & C3)|(_ & C2 & _)]; [|congruence]. split; [lia|]. split; auto. split; [pose proof (valid32 _ C2); lia|].
      intros x Hx. rewrite BY by lia. now rewrite N.eqb_refl.
    + intros E. destruct (R5 _ _ _ E) as (Q1 & Q2 & Q3 & Q4). split; [lia|]. split; auto. split; auto. intros x Hx. rewrite BY by lia.
      destruct (N.eqb_spec k idx); [congruence|]. destruct (N.ltb_spec k n); [auto|lia].
  - intros H. unfold upd. destruct (N.eqb_spec (N.max n (idx + 1) - 1) idx) as [E|Hn].
    + unfold ent_of. destruct (N.eqb_spec ino 0) as [->|Z]; [|discriminate]. destruct HC as [(_ & C2 & _)|(_ & _ & C)]; [pose proof (valid32 _ C2); lia|lia].
    + replace (N.max n (idx + 1) - 1) with (n - 1) by lia. apply R6. lia.
  - intros k l nm' i j. unfold upd, ent_of. destruct (N.eqb_spec k idx) as [->|Hn], (N.eqb_spec l idx) as [->|Hn']; auto; destruct (N.eqb_spec ino 0) as [|Z]; try discriminate; try (intros; eapply R7; eauto; fail).
    + intros X Y. injection X as <- <-. destruct HC as [(_ & _ & C)|(_ & C & _)]; [|congruence]. symmetry. eapply C; eauto.
    + intros Y X. injection X as <- <-. destruct HC as [(_ & _ & C)|(_ & C & _)]; [|congruence]. eapply C; eauto.
Qed.

(** The block of a populated slot has a nonzero byte. *)
Lemma ent_nz a n ents idx nm i : DirRep a n ents -> ents idx = Some (nm, i) -> exists x,
  off idx <= a_size a /\ DS <= BS g /\ off idx / BS g = (off idx + DS - 1) / BS g /\ x / BS g = off idx / BS g /\ a_byte a x <> 0.
Proof.
  intros DR E. pose proof (DS_pos g OK) as DP. destruct (dr_some _ _ _ _ DR _ _ _ E) as (Q1 & Q2 & Q3 & Q4). pose proof (DS_ge g OK) as DG.
  destruct (nz32 i Q3) as (x & Hx & NZ). exists (off idx + x). pose proof (dsize_lt g OK idx n Q1) as DL.
  pose proof (off_div g OK idx (DS - 1) ltac:(lia)) as [A _]. pose proof (off_div g OK idx x ltac:(lia)) as [B _].
  split; [rewrite (dr_size _ _ _ _ DR); lia|]. split; [exact (ok_DIRENT g OK)|].
  split. { replace (off idx + DS - 1) with (off idx + (DS - 1)) by lia. rewrite A. apply (off_div0 g OK). }
  split; [rewrite B; symmetry; apply (off_div0 g OK)|]. rewrite Q4 by lia. rewrite (dirent_ino g OK) by exact Hx. exact NZ.
Qed.

Lemma DirRep_trunc a n ents m : DirRep a n ents -> m <= n -> (0 < m -> ents (m - 1) <> None) ->
  DirRep (atrunc a (dsize m)) m (fun k => if k <? m then ents k else None).
Proof.
  intros [R1 R2 R3 R4 R5 R6 R7] Hm HL. pose proof (DS_ge g OK) as DG. pose proof (DS_pos g OK) as DP.
  assert (BY : forall k x, k < m -> x < DS -> a_byte (atrunc a (dsize m)) (off k + x) = a_byte a (off k + x)).
  { intros k x Hk Hx. unfold atrunc. cbn [a_byte]. pose proof (dsize_lt g OK k m Hk). destruct (N.ltb_spec (off k + x) (dsize m)); [auto|lia]. }
  constructor; auto.
  - lia.
  - intros k Hk. destruct (N.ltb_spec k m); [|lia]. intros E. rewrite <- (R4 k) by (auto; lia). apply (get32_ext g OK). intros; apply BY; lia.
  - intros k nm i. destruct (N.ltb_spec k m) as [L|]; [|discriminate]. intros E. destruct (R5 _ _ _ E) as (Q1 & Q2 & Q3 & Q4). split; auto. split; auto. split; auto.
    intros x Hx. rewrite BY by lia. auto.
  - intros H. destruct (N.ltb_spec (m - 1) m); [auto|lia].
  - intros k l nm i j. destruct (k <? m), (l <? m); try discriminate. apply R7.
Qed.

(** The index before slot [u], as the code counts. *)
Definition enc (u : N) : N := if u =? 0 then UINT32_MAX else u - 1.
Lemma dec32_enc u k : u < UINT32_MAX -> 1 <= k -> k <= u + 1 -> dec32 u k = enc (u + 1 - k).
Proof.
  unfold dec32, enc, u32, UINT32_MAX. intros H1 H2 H3. destruct (N.eqb_spec (u + 1 - k) 0).
  - apply mod_uniq with 0; lia.
  - apply mod_uniq with 1; lia.
Qed.
Lemma enc_inc u : u < UINT32_MAX -> u32 (enc u + 1) = u.
Proof.
  unfold enc, u32, UINT32_MAX. intros H. destruct (N.eqb_spec u 0) as [->|]; [reflexivity|]. rewrite N.mod_small; lia.
Qed.
Lemma back_block_spec a n ents d q m : DirRep a n ents -> BA g a n d q m -> n <= UINT32_MAX ->
  forall b, N.of_nat b < m ->
  (exists k, k <= N.of_nat b /\ ents (q * DPB + k) <> None /\ (forall j, k < j <= N.of_nat b -> ents (q * DPB + j) = None) /\
     back_block g b (q * DPB + N.of_nat b) d = (true, q * DPB + k)) \/
  ((forall j, j <= N.of_nat b -> ents (q * DPB + j) = None) /\ back_block g b (q * DPB + N.of_nat b) d = (false, enc (q * DPB))).
Proof.
  intros DR B N32. induction b; intros Hb; cbn [back_block].
  - destruct (ents (q * DPB + N.of_nat 0)) as [[nm i]|] eqn:E.
    + destruct (slot_some g OK a n ents DR d q m (N.of_nat 0) nm i B Hb E) as (G1 & G2 & _). rewrite G1. destruct (N.eqb_spec i INODE_INVALID); [unfold INODE_INVALID in *; congruence|].
      left. exists 0. split; [lia|]. split; [change 0 with (N.of_nat 0); congruence|]. split; [intros; lia|]. reflexivity.
    + rewrite (slot_none g OK a n ents DR d q m (N.of_nat 0) B Hb E). cbn [N.eqb negb]. right. split.
      * intros j Hj. now replace j with (N.of_nat 0) by lia.
      * unfold INODE_INVALID. rewrite N.eqb_refl. cbn [negb]. destruct B as (B1 & B2 & _). rewrite dec32_enc by lia. do 2 f_equal. lia.
  - destruct (ents (q * DPB + N.of_nat (S b))) as [[nm i]|] eqn:E.
    + destruct (slot_some g OK a n ents DR d q m (N.of_nat (S b)) nm i B Hb E) as (G1 & G2 & _). rewrite G1. destruct (N.eqb_spec i INODE_INVALID); [unfold INODE_INVALID in *; congruence|].
      left. exists (N.of_nat (S b)). split; [lia|]. split; [congruence|]. split; [intros; lia|]. reflexivity.
    + rewrite (slot_none g OK a n ents DR d q m (N.of_nat (S b)) B Hb E). unfold INODE_INVALID. rewrite N.eqb_refl. cbn [negb].
      destruct B as (B1 & B2 & _). rewrite dec32_enc by lia.
      replace (enc (q * DPB + N.of_nat (S b) + 1 - 1)) with (q * DPB + N.of_nat b) by (unfold enc; destruct (N.eqb_spec (q * DPB + N.of_nat (S b) + 1 - 1) 0); lia).
      destruct (IHb ltac:(lia)) as [(k & K1 & K2 & K3 & K4)|(K1 & K2)].
      * left. exists k. split; [lia|]. split; auto. split; auto. intros j Hj. destruct (N.eq_dec j (N.of_nat (S b))) as [->|]; auto. apply K3. lia.
      * right. split; auto. intros j Hj. destruct (N.eq_dec j (N.of_nat (S b))) as [->|]; auto. apply K1. lia.
Qed.

(** arithmetic for the next lemma *)
Lemma ts_q m d q : m <> 0 -> m = d * q + 0 -> 1 <= q.
Proof using. clear. intros H E. destruct (N.eq_dec q 0) as [->|]; [rewrite N.mul_0_r in E|]; lia. Qed.
Lemma ts_m m d q : 1 <= d -> 1 <= q -> m = d * q + 0 -> m - 1 = (q - 1) * d + (d - 1).
Proof using. clear. intros H Q E. replace q with ((q - 1) + 1) in E by lia. rewrite N.mul_add_distr_l in E. rewrite (N.mul_comm (q - 1)). lia. Qed.
Lemma ts_0 b s d q : 1 <= q -> 1 <= d -> 1 <= s -> s * d <= b -> 0 < b ->
  (if (0 <? b - s * d) && (b <=? q * b + 0 * s) && (0 * s =? 0) then q * b + 0 * s - (b - s * d) else q * b + 0 * s) = (q - 1) * b + (d - 1) * s + s.
Proof using.
  clear. intros Q D S B Z. rewrite N.mul_0_l, N.add_0_r, N.eqb_refl, andb_true_r.
  assert (X : q * b = (q - 1) * b + b) by (replace q with ((q - 1) + 1) at 1 by lia; lia).
  assert (Y : s * d = (d - 1) * s + s) by (replace d with ((d - 1) + 1) at 1 by lia; lia).
  rewrite X. rewrite Y in *. generalize dependent ((q - 1) * b). generalize dependent ((d - 1) * s). intros.
  destruct (N.leb_spec b (n0 + b)); [|lia]. destruct (N.ltb_spec 0 (b - (n + s))); cbn [andb]; lia.
Qed.
Lemma ts_1 b s d q r : r <> 0 -> 1 <= s -> 
  (if (0 <? b - s * d) && (b <=? q * b + r * s) && (r * s =? 0) then q * b + r * s - (b - s * d) else q * b + r * s) = q * b + (r - 1) * s + s.
Proof using.
  clear. intros R S. assert (X : r * s = (r - 1) * s + s) by (replace r with ((r - 1) + 1) at 1 by lia; lia).
  destruct (N.eqb_spec (r * s) 0); [lia|]. rewrite andb_false_r. lia.
Qed.
(** The size to which RedDirEntryDelete truncates, for [m] remaining slots. *)
Lemma trunc_size m : (if (0 <? DIR_BLOCK_UNUSED_SPACE g) && (BS g <=? off m) && (off m mod BS g =? 0) then off m - DIR_BLOCK_UNUSED_SPACE g else off m) = dsize m.
Proof.
  pose proof (DSDPB g OK) as B. pose proof (DPB_pos g OK) as DP. pose proof (DS_pos g OK) as DSP. pose proof (ok_BS g OK) as BP. unfold DIR_BLOCK_UNUSED_SPACE, DIR_BLOCK_USED_SPACE.
  pose proof (off_div g OK m 0 ltac:(lia)) as [_ OM]. rewrite !N.add_0_r in OM. rewrite OM.
  pose proof (idx_eq g OK m) as E. pose proof (idx_ub g OK m) as U. unfold FsDirP.dsize.
  destruct (N.eqb_spec m 0) as [->|Hm].
  { unfold DirEntryIndexToOffset. rewrite N.div_0_l, N.mod_0_l by lia. rewrite !N.mul_0_l, N.add_0_r. destruct (N.leb_spec (BS g) 0); [lia|]. now rewrite andb_false_r. }
  unfold DirEntryIndexToOffset. revert E U. generalize (m / DPB), (m mod DPB). intros q r E U.
  destruct (N.eq_dec r 0) as [->|Hr].
  - assert (Q : 1 <= q) by (apply (ts_q m DPB q); auto). assert (EM : m - 1 = (q - 1) * DPB + (DPB - 1)) by (apply ts_m; auto).
    destruct (idx_at g OK (q - 1) (DPB - 1)) as [X1 X2]; [clear - DP; lia|]. rewrite EM, X1, X2. apply ts_0; auto. clear - DSP; lia.
  - assert (EM : m - 1 = q * DPB + (r - 1)) by (clear - E Hr; lia). destruct (idx_at g OK q (r - 1)) as [X1 X2]; [clear - U Hr; lia|]. rewrite EM, X1, X2.
    apply ts_1; auto. clear - DSP; lia.
Qed.

Variable C0 : mroot.
Variable D0 : N -> blk.
Variable R0 : bool.
Notation VOL := (VOL g C0 D0 R0).
Notation NewAt := (NewAt g C0 D0 R0).

Lemma back_loop_spec V os s a n ents : DirRep a n ents ->
  forall fuel c u, VOL V ((true, c) :: os) s -> V (c_ino c) = Some a -> u <= N.of_nat fuel -> u < n ->
  (u mod DPB = 0 \/ exists k, ents k <> None /\ k / DPB = (u - 1) / DPB) ->
  exists u' c', back_loop g fuel (enc u) (s, c) = (Ok (enc u'), (s, c')) /\ csame c c' /\ VOL V ((true, c') :: os) s /\
    u' <= u /\ (0 < u' -> ents (u' - 1) <> None) /\ (forall j, u' <= j < u -> ents j = None).
Proof.
  intros DR. assert (N32 : n <= UINT32_MAX) by (pose proof (dr_n _ _ _ _ DR); unfold DIRENTS_MAX in *; lia).
  pose proof (DPB_pos g OK) as DP.
  induction fuel; intros c u HV Va Hf Hn HI; cbn [back_loop].
  - exists 0, c. assert (u = 0) by lia. subst u. split; [reflexivity|]. split; [apply (csame_refl g OK)|]. split; auto. split; [lia|]. split; [lia|]. intros; lia.
  - destruct (N.eqb_spec (enc u) UINT32_MAX) as [Z|Z].
    { assert (u = 0) by (unfold enc in Z; destruct (N.eqb_spec u 0); [auto|unfold UINT32_MAX in *; lia]). subst u.
      exists 0, c. split; [reflexivity|]. split; [apply (csame_refl g OK)|]. split; auto. split; [lia|]. split; [lia|]. intros; lia. }
    assert (U0 : 0 < u) by (destruct (N.eq_dec u 0) as [->|]; [destruct Z; reflexivity|lia]).
    assert (EU : enc u = u - 1) by (unfold enc; destruct (N.eqb_spec u 0); lia). rewrite EU.
    pose proof (idx_eq g OK (u - 1)) as EI. pose proof (idx_ub g OK (u - 1)) as UI. rewrite N.mul_comm in EI.
    revert EI UI HI. generalize ((u - 1) / DPB), ((u - 1) mod DPB). intros q b EI UI HI.
    destruct (vol_seekread g OK C0 D0 R0 V c os s q HV) as (a' & r & c' & Va' & RN & SM & HV' & HR).
    { apply (blk_in g OK n); [apply DR|lia]. }
    assert (a' = a) by congruence. subst a'.
    assert (Va2 : V (c_ino c') = Some a) by (rewrite (ino_same g OK _ _ SM); auto).
    unfold bind at 1, attempt at 1. rewrite RN.
    assert (M0 : (q * DPB) mod DPB = 0) by (apply N.mod_mul; lia).
    destruct r as [d|e].
    + assert (B : BA g a n d q (b + 1)) by (apply (BA_seek g OK a n ents DR); auto; lia).
      destruct (back_block_spec a n ents d q (b + 1) DR B N32 (N.to_nat b)) as [(k & K1 & K2 & K3 & K4)|(K1 & K2)]; [lia| |];
        rewrite Nnat.N2Nat.id in *; rewrite <- EI in *.
      * rewrite K4. exists (q * DPB + k + 1), c'. split; [unfold enc; destruct (N.eqb_spec (q * DPB + k + 1) 0); [lia|]; unfold ret; do 2 f_equal; lia|].
        split; auto. split; auto. split; [lia|]. split; [intros _; now replace (q * DPB + k + 1 - 1) with (q * DPB + k) by lia|].
        intros j Hj. replace j with (q * DPB + (j - q * DPB)) by lia. apply K3. lia.
      * rewrite K2. destruct (IHfuel c' (q * DPB) HV' Va2) as (u' & c2 & R2 & S2 & HV2 & X1 & X2 & X3); [lia|lia|auto|].
        exists u', c2. split; auto. split; [eapply (csame_trans g OK); eauto|]. split; auto. split; [lia|]. split; auto.
        intros j Hj. destruct (N.lt_ge_cases j (q * DPB)) as [L|L]; [apply X3; lia|]. replace j with (q * DPB + (j - q * DPB)) by lia. apply K1. lia.
    + destruct HR as [-> HZ'].
      pose proof (hole g OK a n ents q DR HZ') as HH.
      assert (BE : b = DPB - 1).
      { destruct HI as [HI|(k & K1 & K2)].
        - destruct (N.eq_dec b (DPB - 1)) as [|Hb]; auto. exfalso. replace u with (q * DPB + (b + 1)) in HI by lia. rewrite (proj2 (idx_at g OK q (b + 1) ltac:(lia))) in HI. lia.
        - exfalso. apply K1. rewrite (idx_eq g OK k), K2, N.mul_comm. apply HH. apply (idx_ub g OK). }
      destruct (IHfuel c' (q * DPB) HV' Va2) as (u' & c2 & R2 & S2 & HV2 & X1 & X2 & X3); [lia|lia|auto|].
      exists u', c2. rewrite dec32_enc by lia. replace (u - 1 + 1 - DPB) with (q * DPB) by lia. split; auto.
      split; [eapply (csame_trans g OK); eauto|]. split; auto. split; [lia|]. split; auto.
      intros j Hj. destruct (N.lt_ge_cases j (q * DPB)) as [L|L]; [apply X3; lia|]. replace j with (q * DPB + (j - q * DPB)) by lia. apply HH. lia.
Qed.

Lemma direntwrite_aux V c os s idx ino nm a n ents :
  VOL V ((true, c) :: os) s -> c_dirty c = true -> c_dir c = true -> V (c_ino c) = Some a -> DirRep a n ents ->
  idx <= n -> idx < DIRENTS_MAX g ->
  (nok g nm /\ INODE_IS_VALID g ino = true /\ (forall k i, ents k = Some (nm, i) -> k = idx)) \/ (nm = [] /\ ino = 0 /\ idx + 1 < n) ->
  (R0 = true -> exists a x, V (c_ino c) = Some a /\ off idx <= a_size a /\ DS <= BS g /\ off idx / BS g = (off idx + DS - 1) / BS g /\
      x / BS g = off idx / BS g /\ a_byte a x <> 0) ->
  exists c' s', cid c c' /\
   ((DirEntryWrite g idx ino nm (s, c) = (Err ENOSPC, (s', c')) /\ VOL V ((true, c') :: os) s' /\ FBC s' < MAXCOST g /\ (idx < n -> s' = s /\ ~ NewAt s (c_ino c) (idx / DPB))) \/
    (DirEntryWrite g idx ino nm (s, c) = (Ok tt, (s', c')) /\
       VOL (upd V (c_ino c) (Some (awrite a (off idx) DS (dirent ino nm)))) ((true, c') :: os) s' /\ NewAt s' (c_ino c) (idx / DPB))).
Proof.
  intros HV HD HDir Va DR Hi Hm HC HR. destruct (VOL_mounted g OK C0 D0 R0 _ _ _ _ _ HV) as [_ HM]. rewrite HD in HM.
  assert (CHK : forall x, (RedInodeDataWrite g (off idx) DS (dirent ino nm) ;;; ret tt) (s, c) = x -> DirEntryWrite g idx ino nm (s, c) = x).
  { intros x <-. apply entwrite_run; auto. destruct HC as [HC|(A & B & _)]; [left; tauto|right; auto]. }
  pose proof (DS_pos g OK) as DP. destruct (off_LM g OK idx Hm) as [OL _].
  destruct (vol_write1 g OK C0 D0 R0 V c os s (off idx) DS (dirent ino nm) HV HD) as (a' & c' & s' & Va' & CD & X).
  { clear - DP; lia. } { exact OL. }
  { rewrite (off_div0 g OK). replace (off idx + DS - 1) with (off idx + (DS - 1)) by (clear - DP; lia). symmetry. apply (off_div g OK). clear - DP; lia. }
  { exact HR. }
  rewrite (off_div0 g OK) in X.
  assert (EA : a' = a) by congruence. rewrite EA in *. clear a' EA Va'. exists c', s'. split; [exact CD|]. destruct X as [(RN & HV' & F & SS)|(RN & HV' & NA)].
  - left. split; [apply CHK; unfold bind; now rewrite RN|]. split; auto. split; auto. intros L. apply SS. rewrite (dr_size _ _ _ _ DR). pose proof (dsize_lt g OK idx n L) as X. clear - X. lia.
  - right. split; [apply CHK; unfold bind; now rewrite RN|]. split; [exact HV'|exact NA].
Qed.

Lemma vol_direntwrite V c os s idx ino nm a n ents :
  VOL V ((true, c) :: os) s -> c_dirty c = true -> c_dir c = true -> V (c_ino c) = Some a -> DirRep a n ents ->
  idx <= n -> idx < DIRENTS_MAX g ->
  (nok g nm /\ INODE_IS_VALID g ino = true /\ (forall k i, ents k = Some (nm, i) -> k = idx)) \/ (nm = [] /\ ino = 0 /\ idx + 1 < n) ->
  (R0 = true -> ents idx <> None) ->
  exists c' s', cid c c' /\
   ((DirEntryWrite g idx ino nm (s, c) = (Err ENOSPC, (s', c')) /\ VOL V ((true, c') :: os) s' /\ FBC s' < MAXCOST g /\ (idx < n -> s' = s /\ ~ NewAt s (c_ino c) (idx / DPB))) \/
    (DirEntryWrite g idx ino nm (s, c) = (Ok tt, (s', c')) /\
       VOL (upd V (c_ino c) (Some (awrite a (off idx) DS (dirent ino nm)))) ((true, c') :: os) s' /\ NewAt s' (c_ino c) (idx / DPB))).
Proof.
  intros HV HD HDir Va DR Hi Hm HC HR. apply (direntwrite_aux V c os s idx ino nm a n ents); auto.
  intros HR0. specialize (HR HR0). destruct (ents idx) as [[nm0 i0]|] eqn:E; [|destruct (HR eq_refl)].
  destruct (ent_nz a n ents idx nm0 i0 DR E) as (x & A1 & A2 & A3 & A4 & A5). exists a, x.
  exact (conj Va (conj A1 (conj A2 (conj A3 (conj A4 A5))))).
Qed.

(** The block of a slot is the block at the end of the preceding slots, or the one before. *)
Lemma blk_near idx : idx <> 0 -> idx / DPB = (dsize idx + BS g - 1) / BS g \/ idx / DPB + 1 = (dsize idx + BS g - 1) / BS g.
Proof using OK.
  clear C0 D0 R0. intros I0. pose proof (DS_pos g OK) as DP. pose proof (DPB_pos g OK) as PP. pose proof (BSp g OK) as BP.
  assert (E : (dsize idx + BS g - 1) / BS g = (idx - 1) / DPB + 1).
  { replace idx with (idx - 1 + 1) at 1 by lia. rewrite (dsize_S g OK).
    replace (off (idx - 1) + DS + BS g - 1) with (off (idx - 1) + (DS - 1) + 1 * BS g) by lia.
    rewrite N.div_add by lia. f_equal. apply (off_div g OK). lia. }
  rewrite E. pose proof (idx_eq g OK idx) as E1. pose proof (idx_eq g OK (idx - 1)) as E2. pose proof (idx_ub g OK idx) as U1. pose proof (idx_ub g OK (idx - 1)) as U2.
  assert (A : (idx - 1) / DPB <= idx / DPB) by (apply N.div_le_mono; lia).
  destruct (N.le_gt_cases (idx / DPB) ((idx - 1) / DPB + 1)) as [B|B]; [lia|]. exfalso.
  assert (((idx - 1) / DPB + 2) * DPB <= idx / DPB * DPB) by (apply N.mul_le_mono_r; lia). lia.
Qed.

(** Deleting an existing entry. *)
Lemma vol_dirdelete V c os s idx a n ents nm i :
  VOL V ((true, c) :: os) s -> c_dirty c = true -> c_dir c = true -> V (c_ino c) = Some a -> DirRep a n ents -> ents idx = Some (nm, i) ->
  exists c' s', cid c c' /\
   ((RedDirEntryDelete g idx (s, c) = (Err ENOSPC, (s', c')) /\ VOL V ((true, c') :: os) s' /\ FBC s < MAXCOST g /\
       (forall j l, NewAt s j l -> NewAt s' j l) /\ (idx + 1 < n \/ idx = 0 \/ ents (idx - 1) <> None -> ~ NewAt s (c_ino c) (idx / DPB))) \/
    (RedDirEntryDelete g idx (s, c) = (Ok tt, (s', c')) /\
       exists a' n' b', VOL (upd V (c_ino c) (Some a')) ((b', c') :: os) s' /\ DirRep a' n' (upd ents idx None) /\ a_nlink a' = a_nlink a /\ a_pino a' = a_pino a)).
Proof.
  intros HV HD HDir Va DR E. destruct (VOL_mounted g OK C0 D0 R0 _ _ _ _ _ HV) as [_ HM]. rewrite HD in HM.
  pose proof (DS_pos g OK) as DP. destruct (dr_some _ _ _ _ DR _ _ _ E) as (Q1 & Q2 & Q3 & Q4). pose proof (dr_n _ _ _ _ DR) as NB.
  destruct (VOL_V g OK C0 D0 R0 _ _ _ _ _ HV) as (a' & Va' & ES & _). assert (a' = a) by congruence. subst a'.
  assert (N32 : n <= UINT32_MAX) by (unfold DIRENTS_MAX in *; lia). pose proof (DPB_pos g OK) as DPP.
  assert (RD : RedDirEntryDelete g idx (s, c) = (if off idx + DS =? dsize n then
      t <- back_loop g (S (N.to_nat idx)) (dec32 idx 1) ;;
       let t := u32 (t + 1) in let size := off t in
       let size := if (0 <? DIR_BLOCK_UNUSED_SPACE g) && (BS g <=? size) && (size mod BS g =? 0) then size - DIR_BLOCK_UNUSED_SPACE g else size in
       RedInodeDataTruncate g size
     else DirEntryWrite g idx INODE_INVALID []) (s, c)).
  { unfold RedDirEntryDelete. unfold bind at 1, getc at 1. cbn [snd]. rewrite HM, HDir. cbn [negb orb].
    destruct (N.leb_spec (DIRENTS_MAX g) idx) as [G|_]; [clear - G Q1 NB; lia|]. rewrite <- ES, (dr_size _ _ _ _ DR). reflexivity. }
  rewrite RD. clear RD.
  destruct (N.eqb_spec (off idx + DS) (dsize n)) as [LST|LST].
  - assert (EN : n = idx + 1).
    { destruct (N.eq_dec n (idx + 1)) as [|Hn]; auto. exfalso. pose proof (off_lt g OK idx (n - 1) ltac:(lia)). pose proof (dsize_lt g OK (n - 1) n ltac:(lia)). lia. }
    destruct (back_loop_spec V os s a n ents DR (S (N.to_nat idx)) c idx HV Va) as (u & c1 & RB & S1 & HV1 & U1 & U2 & U3); [lia|lia| |].
    { destruct (N.eq_dec (idx mod DPB) 0) as [|Hm]; auto. right. exists idx. split; [congruence|].
      pose proof (idx_eq g OK idx) as X1. pose proof (idx_ub g OK idx) as X2. replace (idx - 1) with (idx / DPB * DPB + (idx mod DPB - 1)) by lia.
      rewrite (proj1 (idx_at g OK _ (idx mod DPB - 1) ltac:(lia))). reflexivity. }
    rewrite dec32_enc by lia. replace (idx + 1 - 1) with idx by lia.
    assert (RUN : forall y, RedInodeDataTruncate g (dsize u) (s, c1) = y -> (t <- back_loop g (S (N.to_nat idx)) (enc idx) ;;
       let t := u32 (t + 1) in let size := off t in
       let size := if (0 <? DIR_BLOCK_UNUSED_SPACE g) && (BS g <=? size) && (size mod BS g =? 0) then size - DIR_BLOCK_UNUSED_SPACE g else size in
       RedInodeDataTruncate g size) (s, c) = y).
    { intros y Hy. unfold bind. rewrite RB. cbv zeta. rewrite (enc_inc u) by (clear - U1 Q1 N32; lia). rewrite trunc_size. exact Hy. }
    pose proof S1 as (T1 & T2 & T3 & T4 & T5 & T6 & T7).
    destruct (vol_trunc g OK C0 D0 R0 V c1 os s (dsize u) HV1) as (a2 & c2 & s2 & Va2 & CD & X); [congruence|apply (dsize_LM g OK); lia|].
    rewrite T1 in Va2. assert (a2 = a) by congruence. subst a2. exists c2, s2. split.
    { eapply (cid_trans g OK); [|exact CD]. repeat split; auto. }
    destruct X as [(RN & HV2 & F & F')|(RN & HV2)]; [left|right].
    + split; [apply RUN; exact RN|]. split; [exact HV2|]. split; [exact F|].
      assert (LT : dsize u < a_size a) by (rewrite (dr_size _ _ _ _ DR), EN; pose proof (dsize_lt g OK idx (idx + 1) ltac:(clear; lia)) as Z; pose proof (dsize_le g OK u idx U1) as Z'; clear - Z Z' DP; lia).
      destruct F' as [F0 F']. destruct (F' LT) as [G1 G2]. split; [exact G1|]. rewrite T1 in G2. intros HC. apply G2.
      assert (I0 : idx <> 0). { intros I0. assert (u = 0) by (clear - U1 I0; lia). subst u. rewrite (dsize_0 g OK) in F0. clear - F0. lia. }
      destruct HC as [HC|[HC|HC]]; [clear - HC EN; lia|contradiction|].
      assert (EU : u = idx). { destruct (N.eq_dec u idx) as [|Hu]; auto. destruct HC. apply U3. clear - U1 Hu I0. lia. }
      rewrite EU. apply blk_near; auto.
    + split; [apply RUN; exact RN|]. rewrite T1 in HV2. exists (atrunc a (dsize u)), u, false. split; [exact HV2|]. split; [|split; reflexivity].
      pose proof (DirRep_trunc a n ents u DR ltac:(lia) U2) as DT.
      assert (EE : forall k, (if k <? u then ents k else None) = upd ents idx None k).
      { intros k. unfold upd. destruct (N.eqb_spec k idx) as [->|Hk]; [destruct (N.ltb_spec idx u); [lia|auto]|].
        destruct (N.ltb_spec k u) as [|G]; auto. destruct (N.lt_ge_cases k idx); [symmetry; apply U3; lia|].
        destruct (ents k) as [[? ?]|] eqn:EK; auto. destruct (dr_some _ _ _ _ DR _ _ _ EK). lia. }
      destruct DT as [A1 A2 A3 A4 A5 A6 A7]. constructor; auto.
      * intros k Hk. rewrite <- EE. auto.
      * intros k nm' i'. rewrite <- EE. apply A5.
      * intros H'. rewrite <- EE. auto.
      * intros k l nm' i' j'. rewrite <- !EE. apply A7.
  - assert (IN : idx + 1 < n).
    { destruct (N.eq_dec n (idx + 1)) as [->|]; [|lia]. exfalso. apply LST. now rewrite (dsize_S g OK). }
    destruct (vol_direntwrite V c os s idx 0 [] a n ents HV HD HDir Va DR ltac:(lia) ltac:(lia)) as (c' & s' & CD & X); [right; auto|congruence|].
    exists c', s'. split; auto. destruct X as [(RN & HV' & F & SS)|(RN & HV' & _)]; [left|right].
    + destruct (SS ltac:(lia)) as [-> NN]. split; auto.
    + split; auto. exists (awrite a (off idx) DS (dirent 0 [])), (N.max n (idx + 1)), true. split; [exact HV'|]. split; [|split; reflexivity].
      exact (DirRep_write a n ents idx 0 [] DR ltac:(lia) ltac:(lia) (or_intror (conj eq_refl (conj eq_refl IN)))).
Qed.
End DirP3.
