(** Directories: representation and lookup. *)
From Verif Require Import Base Count FsState FsImap FsInode FsData FsTree FsImapProof FsWp FsInv FsStep FsSeek FsBranch FsRead FsWrite FsWrite2 FsVol FsVol2 FsVol3 FsVol4 FsDir.
Ltac Zify.zify_post_hook ::= idtac.

(** A valid file name component for entry creation. *)
Definition nok (g : cfg) (nm : name) : Prop :=
  1 <= nlen nm <= NMAX g /\ (forall k, k < nlen nm -> nbyte nm k <> 0) /\ isdots nm = false.

Section Rep.
Variable g : cfg.
(** Size of a directory with [n] slots. *)
Definition dsize (n : N) : N := if n =? 0 then 0 else DirEntryIndexToOffset g (n - 1) + DIRENT_SIZE g.

(** Directory file [a] has [n] slots and slot k holds [ents k]. *)
Record DirRep (a : afile) (n : N) (ents : N -> option (name * N)) : Prop := {
  dr_dir : a_dir a = true;
  dr_size : a_size a = dsize n;
  dr_n : n <= DIRENTS_MAX g;
  dr_none : forall k, k < n -> ents k = None -> get32 (a_byte a) (DirEntryIndexToOffset g k) = 0;
  dr_some : forall k nm i, ents k = Some (nm, i) -> k < n /\ nok g nm /\ 0 < i < 4294967296 /\
              forall x, x < 4 + NMAX g -> a_byte a (DirEntryIndexToOffset g k + x) = dirent i nm x;
  dr_last : 0 < n -> ents (n - 1) <> None;
  dr_uniq : forall k l nm i j, ents k = Some (nm, i) -> ents l = Some (nm, j) -> k = l }.
End Rep.

Section DirP.
Variable g : cfg.
Hypothesis OK : cfg_ok g.
Set Default Proof Using "OK".
Notation DS := (DIRENT_SIZE g).
Notation DPB := (DIRENTS_PER_BLOCK g).
Notation LM := (INODE_SIZE_MAX g).
Notation off := (DirEntryIndexToOffset g).
Notation dsize := (dsize g).
Notation DirRep := (DirRep g).

Lemma DS_ge : 4 + NMAX g <= DS.
Proof. unfold DIRENT_SIZE. destruct (_ =? _); lia. Qed.
Lemma DS_pos : 5 <= DS. Proof. pose proof DS_ge. pose proof (ok_NMAX g OK). lia. Qed.
Lemma DPB_pos : 1 <= DPB.
Proof.
  unfold DIRENTS_PER_BLOCK. pose proof (ok_DIRENT g OK) as H. pose proof DS_pos as P.
  pose proof (div_eq (BS g) DS ltac:(lia)) as E. pose proof (mod_ub (BS g) DS ltac:(lia)). destruct (N.eq_dec (BS g / DS) 0) as [Z|]; [|lia]. rewrite Z in E. lia.
Qed.
Lemma DSDPB : DS * DPB <= BS g.
Proof. unfold DIRENTS_PER_BLOCK. pose proof DS_pos as P. pose proof (div_eq (BS g) DS ltac:(lia)) as E. lia. Qed.
Lemma DPB_le : DPB <= BS g.
Proof. pose proof DSDPB. pose proof DS_pos. nia. Qed.
Lemma idx_eq k : k = DPB * (k / DPB) + k mod DPB.
Proof. apply div_eq. pose proof DPB_pos. lia. Qed.
Lemma idx_ub k : k mod DPB < DPB.
Proof. apply mod_ub. pose proof DPB_pos. lia. Qed.
Lemma off_in k x : x < DS -> k mod DPB * DS + x < BS g.
Proof. intros H. pose proof (idx_ub k). pose proof DSDPB. nia. Qed.
Lemma off_div k x : x < DS -> (off k + x) / BS g = k / DPB /\ (off k + x) mod BS g = k mod DPB * DS + x.
Proof.
  intros H. pose proof (off_in k x H) as B. unfold DirEntryIndexToOffset.
  replace (k / DPB * BS g + k mod DPB * DS + x) with (k / DPB * BS g + (k mod DPB * DS + x)) by lia.
  exact (blk_split g OK _ _ B).
Qed.
Lemma off_div0 k : off k / BS g = k / DPB.
Proof. pose proof (off_div k 0 ltac:(pose proof DS_pos; lia)) as [H _]. now rewrite N.add_0_r in H. Qed.
(** Slots are disjoint and ordered. *)
Lemma off_lt j k : j < k -> off j + DS <= off k.
Proof.
  intros H. pose proof (idx_eq j) as Ej. pose proof (idx_eq k) as Ek. pose proof (idx_ub j) as Uj. pose proof (idx_ub k) as Uk.
  pose proof DSDPB as B. unfold DirEntryIndexToOffset. destruct (N.lt_trichotomy (j / DPB) (k / DPB)) as [L|[E|L]].
  - assert (X : (j / DPB + 1) * BS g <= k / DPB * BS g) by (apply N.mul_le_mono_r; lia).
    assert (Y : (j mod DPB + 1) * DS <= DPB * DS) by (apply N.mul_le_mono_r; lia). lia.
  - rewrite E in *. assert (X : (j mod DPB + 1) * DS <= k mod DPB * DS) by (apply N.mul_le_mono_r; lia). lia.
  - assert (X : DPB * (k / DPB + 1) <= DPB * (j / DPB)) by (apply N.mul_le_mono_l; lia). lia.
Qed.
Lemma off_mono j k : j <= k -> off j <= off k.
Proof. intros H. destruct (N.eq_dec j k) as [->|]; [lia|]. pose proof (off_lt j k ltac:(lia)). lia. Qed.
Lemma off_disj j k x y : j <> k -> x < DS -> y < DS -> off j + x <> off k + y.
Proof. intros H X Y. destruct (N.lt_trichotomy j k) as [L|[E|L]]; [|congruence|]; pose proof (off_lt _ _ L); lia. Qed.
Lemma off_LM k : k < DIRENTS_MAX g -> off k + DS <= LM /\ off k / BS g < INODE_DATA_BLOCKS g.
Proof.
  intros H. rewrite off_div0. unfold DIRENTS_MAX in H. pose proof (idx_eq k) as E. pose proof (idx_ub k) as U. pose proof DPB_pos as P.
  assert (L : k / DPB < INODE_DATA_BLOCKS g).
  { destruct (N.lt_ge_cases (k / DPB) (INODE_DATA_BLOCKS g)) as [|G]; auto.
    assert (X : DPB * INODE_DATA_BLOCKS g <= DPB * (k / DPB)) by (apply N.mul_le_mono_l; lia). lia. }
  split; auto. unfold INODE_SIZE_MAX, DirEntryIndexToOffset. pose proof DSDPB as B.
  assert (X : BS g * (k / DPB + 1) <= BS g * INODE_DATA_BLOCKS g) by (apply N.mul_le_mono_l; lia).
  assert (Y : (k mod DPB + 1) * DS <= DPB * DS) by (apply N.mul_le_mono_r; lia). lia.
Qed.
Lemma dsize_S n : dsize (n + 1) = off n + DS.
Proof. unfold FsDirP.dsize. destruct (N.eqb_spec (n + 1) 0); [lia|]. now replace (n + 1 - 1) with n by lia. Qed.
Lemma dsize_0 : dsize 0 = 0. Proof. reflexivity. Qed.
Lemma dsize_lt k n : k < n -> off k + DS <= dsize n.
Proof.
  intros H. unfold FsDirP.dsize. destruct (N.eqb_spec n 0); [lia|]. pose proof (off_mono k (n - 1) ltac:(lia)). lia.
Qed.
Lemma dsize_le n k : n <= k -> dsize n <= off k.
Proof.
  intros H. unfold FsDirP.dsize. destruct (N.eqb_spec n 0); [lia|]. apply off_lt. lia.
Qed.
Lemma dsize_LM n : n <= DIRENTS_MAX g -> dsize n <= LM.
Proof. intros H. unfold FsDirP.dsize. destruct (N.eqb_spec n 0); [lia|]. apply off_LM. lia. Qed.
Lemma dsize_pos n : 0 < n -> 0 < dsize n.
Proof. intros H. pose proof (dsize_lt 0 n H). pose proof DS_pos. lia. Qed.

Lemma idx_dsize n : n <= DIRENTS_MAX g -> DirOffsetToEntryIndex g (dsize n) = n.
Proof.
  intros H. assert (N32 : n <= UINT32_MAX) by (unfold DIRENTS_MAX in H; lia).
  pose proof DPB_pos as P. pose proof DS_pos as P2. pose proof (ok_BS g OK) as PB.
  assert (E : u32 (dsize n / BS g) * DPB + dsize n mod BS g / DS = n /\ dsize n / BS g <= n).
  { unfold FsDirP.dsize. destruct (N.eqb_spec n 0) as [->|Hn].
    { rewrite N.div_0_l, N.mod_0_l, N.div_0_l by lia. change (u32 0) with 0. split; lia. }
    pose proof (idx_eq (n - 1)) as E. pose proof (idx_ub (n - 1)) as U. pose proof DSDPB as B. unfold DirEntryIndexToOffset.
    set (q := (n - 1) / DPB) in *. set (r := (n - 1) mod DPB) in *. clearbody q r.
    assert (Qn : q + 1 <= n). { assert (1 * q <= DPB * q) by (apply N.mul_le_mono_r; lia). lia. }
    assert (Y : (r + 1) * DS <= DPB * DS) by (apply N.mul_le_mono_r; lia).
    replace (q * BS g + r * DS + DS) with (q * BS g + (r + 1) * DS) by lia.
    destruct (N.eq_dec ((r + 1) * DS) (BS g)) as [Z|Z].
    - assert (r + 1 = DPB) by nia.
      rewrite (div_uniq (q * BS g + (r + 1) * DS) (BS g) (q + 1) 0) by lia. rewrite (mod_uniq (q * BS g + (r + 1) * DS) (BS g) (q + 1) 0) by lia.
      rewrite N.div_0_l by lia. unfold u32. unfold UINT32_MAX in *. rewrite N.mod_small by lia. lia.
    - rewrite (div_uniq (q * BS g + (r + 1) * DS) (BS g) q ((r + 1) * DS)) by lia. rewrite (mod_uniq (q * BS g + (r + 1) * DS) (BS g) q ((r + 1) * DS)) by lia.
      rewrite N.div_mul by lia. unfold u32, UINT32_MAX in *. rewrite N.mod_small by lia. lia. }
  destruct E as [E1 E2]. unfold DirOffsetToEntryIndex. revert E1. generalize (u32 (dsize n / BS g) * DPB), (dsize n mod BS g / DS).
  intros x y E1. unfold u32. unfold UINT32_MAX in *. rewrite (N.mod_small x) by lia. rewrite E1. apply N.mod_small. lia.
Qed.

(** * Encoding *)
Lemma le32_lt v k : le32 v k < 256. Proof. unfold le32. apply mod_ub. lia. Qed.
Lemma get32_le v d o : v < 4294967296 -> (forall x, x < 4 -> d (o + x) = le32 v x) -> get32 d o = v.
Proof.
  intros Hv H. unfold get32. pose proof (H 0 ltac:(lia)) as H0. rewrite N.add_0_r in H0. rewrite H0, (H 1), (H 2), (H 3) by lia.
  unfold le32. change (256 ^ 0) with 1. change (256 ^ 1) with 256. change (256 ^ 2) with 65536. change (256 ^ 3) with 16777216.
  clear H H0. Ltac Zify.zify_post_hook ::= Z.div_mod_to_equations. lia.
Qed.
Ltac Zify.zify_post_hook ::= idtac.
Lemma dirent_ino i nm x : x < 4 -> dirent i nm x = le32 i x.
Proof. intros H. unfold dirent. destruct (N.ltb_spec x 4); [auto|lia]. Qed.
Lemma dirent_nm i nm x : dirent i nm (4 + x) = nbyte nm x.
Proof.
  unfold dirent. destruct (N.ltb_spec (4 + x) 4); [lia|]. replace (4 + x - 4) with x by lia.
  destruct (N.ltb_spec x (nlen nm)) as [|L]; auto. unfold nbyte, nthN. rewrite nth_overflow; auto. unfold nlen, lenN in L. lia.
Qed.
Lemma dirent_0 x : dirent 0 [] x = 0.
Proof.
  unfold dirent. destruct (N.ltb_spec x 4) as [L|L].
  - unfold le32. rewrite N.div_0_l by (apply N.pow_nonzero; lia). reflexivity.
  - unfold nlen, lenN. cbn [length]. destruct (N.ltb_spec (x - 4) (N.of_nat 0)); [lia|reflexivity].
Qed.
Lemma get32_ext d e o : (forall x, x < 4 -> d (o + x) = e (o + x)) -> get32 d o = get32 e o.
Proof. intros H. unfold get32. pose proof (H 0 ltac:(lia)) as H0. rewrite N.add_0_r in H0. now rewrite H0, !H by lia. Qed.
Lemma get32_shift d e o p : (forall x, x < 4 -> d (o + x) = e (p + x)) -> get32 d o = get32 e p.
Proof. intros H. unfold get32. pose proof (H 0 ltac:(lia)) as H0. rewrite !N.add_0_r in H0. now rewrite H0, !H by lia. Qed.

Lemma name_ext (n m : name) : nlen n = nlen m -> (forall k, k < nlen n -> nbyte n k = nbyte m k) -> n = m.
Proof.
  unfold nlen, lenN, nbyte, nthN. intros L H. apply (nth_ext _ _ 0 0); [lia|]. intros k Hk.
  specialize (H (N.of_nat k) ltac:(lia)). now rewrite !Nnat.Nat2N.id in H.
Qed.
Lemma bytes_eq_spec nm d o : forall n k, bytes_eq n k nm d o = true <-> forall x, k <= x < k + N.of_nat n -> d (o + x) = nbyte nm x.
Proof.
  induction n; intros k; cbn [bytes_eq].
  - split; auto. intros _ x Hx. lia.
  - rewrite andb_true_iff, N.eqb_eq, IHn. split.
    + intros [A B] x Hx. destruct (N.eq_dec x k) as [->|]; auto. apply B. lia.
    + intros H. split; [apply H; lia|]. intros x Hx. apply H. lia.
Qed.
Lemma name_match_spec nm nm' d o : nok g nm' -> 1 <= nlen nm <= NMAX g -> (forall k, k < nlen nm -> nbyte nm k <> 0) ->
  (forall x, x < NMAX g -> d (o + x) = nbyte nm' x) -> name_match g nm d o = true <-> nm = nm'.
Proof.
  intros (L & Z & _) L' Z' HD. unfold name_match. rewrite andb_true_iff, orb_true_iff, bytes_eq_spec, !N.eqb_eq. fold (lenN nm). fold (nlen nm).
  assert (OUT : forall n k, nlen n <= k -> nbyte n k = 0).
  { intros n k Hk. unfold nbyte, nthN. apply nth_overflow. unfold nlen, lenN in Hk. lia. }
  split.
  - intros [A B].
    assert (EQ : forall k, k < nlen nm -> nbyte nm k = nbyte nm' k) by (intros k Hk; rewrite <- A, HD by lia; auto).
    assert (LE : nlen nm <= nlen nm').
    { destruct (N.le_gt_cases (nlen nm) (nlen nm')) as [|G]; auto. exfalso. apply (Z' (nlen nm') G). rewrite EQ by auto. apply OUT. lia. }
    assert (GE : nlen nm' <= nlen nm).
    { destruct B as [B|B]; [lia|]. destruct (N.le_gt_cases (nlen nm') (nlen nm)) as [|G]; auto. exfalso. rewrite HD in B by lia. apply (Z _ G B). }
    apply name_ext; [lia|exact EQ].
  - intros ->. split; [intros x Hx; apply HD; lia|]. destruct (N.eq_dec (nlen nm') (NMAX g)) as [|Hn]; auto. right. rewrite HD by lia. apply OUT. lia.
Qed.

(** * Reading a block of a directory *)
Variable C0 : mroot.
Variable D0 : N -> blk.
Variable R0 : bool.
Notation VOL := (VOL g C0 D0 R0).

Lemma vol_seekread V c os s l : VOL V ((true, c) :: os) s -> l < INODE_DATA_BLOCKS g ->
  exists a r c', V (c_ino c) = Some a /\ RedInodeDataSeekAndRead g l (s, c) = (r, (s, c')) /\ csame c c' /\ VOL V ((true, c') :: os) s /\
    match r with
    | Ok d => forall x, x < BS g -> l * BS g + x < a_size a -> d x = a_byte a (l * BS g + x)
    | Err e => e = ENODATA /\ forall x, x < BS g -> a_byte a (l * BS g + x) = 0
    end.
Proof.
  intros (pm & H) Hl. destruct (VP_WK g OK C0 D0 R0 _ _ _ _ _ H) as [W NB]. destruct (VP_a g OK C0 D0 R0 _ _ _ _ _ _ H) as (a & Va & E1 & E2 & E3 & E4 & E5). cbn in E1, E2, E3, E4, E5.
  destruct (seek g OK C0 D0 R0 _ pm s c l W Hl) as (c' & R & SM & S & W').
  assert (Dt : c_dat c' = pm (c_ino c) (pT g l)) by (rewrite (s_dat _ _ _ _ S); now rewrite (ino_same g OK _ _ SM)).
  assert (FIN : forall c2, csame c c2 -> WK g C0 D0 R0 (i_size (c_i c)) pm s c2 -> VOL V ((true, c2) :: os) s).
  { intros c2 (X1 & X2 & X3 & X4 & X5 & X6 & X7) (K' & M' & (W0 & WE)). exists pm. destruct H as (H1 & H2 & H3 & H4). split; [|split; [|split]]; auto.
    - intros o [<-|X]; [|apply H3; now right]. split; [exact M'|]. split; [|split; auto]. cbn [snd]. rewrite X1, X4. apply (H3 _ (or_introl eq_refl)).
    - cbn in *. unfold oino at 1. cbn [snd]. rewrite X1. exact H4. }
  destruct (N.eqb_spec (pm (c_ino c) (pT g l)) 0) as [Z|Z].
  - exists a, (Err ENODATA), c'. split; [exact Va|]. split; [|split; [exact SM|split; [apply FIN; auto|split; auto]]].
    { unfold RedInodeDataSeekAndRead, bind. rewrite R. reflexivity. }
    intros x Hx. rewrite <- E5. unfold vb. destruct (_ <? _); auto. rewrite (fbyte_at g OK) by auto. unfold blkc. now rewrite Z.
  - exists a, (Ok (data_of g (dk s (c_dat c')))), (cset_pb true c'). split; [exact Va|].
    split. { unfold RedInodeDataSeekAndRead, bind. rewrite R. reflexivity. }
    assert (SM2 : csame c (cset_pb true c')) by (eapply (csame_trans g OK); eauto; repeat split).
    split; [exact SM2|]. split.
    + apply FIN; auto. eapply (WK_csame g OK); [exact W'|repeat split|]. destruct W' as (_ & _ & [[A1 A2 A3 A4] B]). split; [constructor; auto|auto].
      intros _. cbn. split; [apply S|]. split; [congruence|]. now rewrite (s_l _ _ _ _ S), (s_dat _ _ _ _ S).
    + intros x Hx Hs. rewrite <- E5. unfold vb. rewrite E1. destruct (N.ltb_spec (l * BS g + x) (a_size a)); [|lia].
      rewrite (fbyte_at g OK) by auto. unfold blkc. rewrite Dt. destruct (N.eqb_spec (pm (c_ino c) (pT g l)) 0); [congruence|reflexivity].
Qed.
End DirP.
