(** Directories: lookup and enumeration. *)
From Verif Require Import Base Count FsState FsImap FsInode FsData FsTree FsImapProof FsWp FsInv FsStep FsSeek FsBranch FsRead FsWrite FsWrite2 FsVol FsVol2 FsVol3 FsVol4 FsDir FsDirP.
Ltac Zify.zify_post_hook ::= idtac.

Section DirP2.
Variable g : cfg.
Hypothesis OK : cfg_ok g.
Set Default Proof Using "OK".
Notation DS := (DIRENT_SIZE g).
Notation DPB := (DIRENTS_PER_BLOCK g).
Notation LM := (INODE_SIZE_MAX g).
Notation off := (DirEntryIndexToOffset g).
Notation dsize := (dsize g).
Notation DirRep := (DirRep g).
Notation INV := DIR_INDEX_INVALID.

Lemma idx_at q b : b < DPB -> (q * DPB + b) / DPB = q /\ (q * DPB + b) mod DPB = b.
Proof.
  intros H. split; [apply div_uniq with b|apply mod_uniq with q]; auto; lia.
Qed.
Lemma off_at q b : b < DPB -> off (q * DPB + b) = q * BS g + b * DS.
Proof. intros H. unfold DirEntryIndexToOffset. destruct (idx_at q b H) as [-> ->]. reflexivity. Qed.

Section OneDir.
Variables (a : afile) (n : N) (ents : N -> option (name * N)).
Hypothesis DR : DirRep a n ents.

(** Block [q] as read, up to slot [m] of the block. *)
Definition BA (d : N -> N) (q m : N) : Prop :=
  m <= DPB /\ q * DPB + m <= n /\ forall b x, b < m -> x < DS -> d (b * DS + x) = a_byte a (off (q * DPB + b) + x).

Lemma BA_seek d q m : m <= DPB -> q * DPB + m <= n ->
  (forall x, x < BS g -> q * BS g + x < a_size a -> d x = a_byte a (q * BS g + x)) -> BA d q m.
Proof using OK DR.
  intros H1 H2 H. split; [exact H1|]. split; [exact H2|]. intros b x Hb Hx.
  pose proof (off_at q b ltac:(lia)) as E. pose proof (dsize_lt g OK (q * DPB + b) n ltac:(lia)) as L.
  pose proof (DSDPB g OK) as B. assert (Y : (b + 1) * DS <= DPB * DS) by (apply N.mul_le_mono_r; lia).
  rewrite H; [f_equal; lia|lia|]. rewrite (dr_size _ _ _ _ DR). lia.
Qed.

Lemma slot_none d q m b : BA d q m -> b < m -> ents (q * DPB + b) = None -> get32 d (b * DS) = 0.
Proof using OK DR.
  intros (H1 & H2 & H) Hb E. rewrite <- (dr_none _ _ _ _ DR (q * DPB + b)); [|lia|exact E].
  apply (get32_shift g OK). intros x Hx. apply H; auto. pose proof (DS_pos g OK). lia.
Qed.
Lemma slot_some d q m b nm i : BA d q m -> b < m -> ents (q * DPB + b) = Some (nm, i) ->
  get32 d (b * DS) = i /\ i <> 0 /\ nok g nm /\ forall x, x < NMAX g -> d (b * DS + 4 + x) = nbyte nm x.
Proof using OK DR.
  intros (H1 & H2 & H) Hb E. destruct (dr_some _ _ _ _ DR _ _ _ E) as (Hk & Hnk & Hi & HB). pose proof (DS_ge g OK).
  split; [|split; [lia|split; auto]].
  - apply (get32_le g OK); [lia|]. intros x Hx. rewrite H, HB by lia. apply (dirent_ino g OK). auto.
  - intros x Hx. rewrite <- N.add_assoc, H, HB by lia. apply (dirent_nm g OK).
Qed.

(** [f] is a free slot below [k], or there is none. *)
Definition FF (k f : N) : Prop := f = INV /\ (forall j, j < k -> ents j <> None) \/ f <> INV /\ f < k /\ ents f = None.
Definition nomatch (nm : name) (k : N) : Prop := forall j i, j < k -> ents j <> Some (nm, i).

Lemma lookup_block_spec nm d q m : BA d q m -> n <= UINT32_MAX -> 1 <= nlen nm <= NMAX g -> (forall k, k < nlen nm -> nbyte nm k <> 0) ->
  forall r b f, b + N.of_nat r = m -> nomatch nm (q * DPB + b) -> FF (q * DPB + b) f ->
  exists f', (exists k i, b <= k < m /\ ents (q * DPB + k) = Some (nm, i) /\ lookup_block g r b (q * DPB) nm f d = (Some (k, i), f')) \/
    (nomatch nm (q * DPB + m) /\ FF (q * DPB + m) f' /\ lookup_block g r b (q * DPB) nm f d = (None, f')).
Proof using OK DR.
  intros B N32 HL HZ. induction r; intros b f Hr NM Hf; cbn [lookup_block].
  - exists f. right. replace m with b by lia. auto.
  - destruct (ents (q * DPB + b)) as [[nm' i]|] eqn:E.
    + destruct (slot_some d q m b nm' i B ltac:(lia) E) as (G1 & G2 & G3 & G4). rewrite G1. destruct (N.eqb_spec i INODE_INVALID) as [|_]; [unfold INODE_INVALID in *; congruence|]. cbn [negb].
      pose proof (name_match_spec g OK nm nm' d (b * DS + 4) G3 HL HZ G4) as MS.
      destruct (name_match g nm d (b * DS + 4)) eqn:EM.
      * assert (nm = nm') by (apply MS; auto). subst nm'. exists f. left. exists b, i. split; [lia|]. split; auto.
      * assert (nm <> nm') by (intros X; apply MS in X; discriminate).
        destruct (IHr (b + 1) f) as (f' & [(k & i' & K1 & K2 & K3)|K]); [lia| | |exists f'; left; exists k, i'; split; [lia|auto]|exists f'; right; exact K].
        -- intros j i' Hj X. destruct (N.eq_dec j (q * DPB + b)) as [->|]; [congruence|]. eapply NM; [|exact X]. lia.
        -- destruct Hf as [[F1 F2]|(F1 & F2 & F3)]; [left|right]; split; auto; [|split; auto; lia].
           intros j Hj. destruct (N.eq_dec j (q * DPB + b)) as [->|]; [congruence|]. apply F2. lia.
    + rewrite (slot_none d q m b B ltac:(lia) E), N.eqb_refl. cbn [negb].
      destruct (IHr (b + 1) (if f =? INV then q * DPB + b else f)) as (f' & [(k & i' & K1 & K2 & K3)|K]); [lia| | |exists f'; left; exists k, i'; split; [lia|auto]|exists f'; right; exact K].
      * intros j i' Hj X. destruct (N.eq_dec j (q * DPB + b)) as [->|]; [congruence|]. eapply NM; [|exact X]. lia.
      * right. destruct B as (B1 & B2 & _). destruct (N.eqb_spec f INV) as [->|F].
        -- split; [unfold INV, UINT32_MAX in *; lia|]. split; [lia|auto].
        -- destruct Hf as [[F1 F2]|(F1 & F2 & F3)]; [congruence|]. split; auto. split; auto. lia.
Qed.
End OneDir.

(** A block that is a hole holds no entries. *)
Lemma hole a n ents q : DirRep a n ents -> (forall x, x < BS g -> a_byte a (q * BS g + x) = 0) -> forall b, b < DPB -> ents (q * DPB + b) = None.
Proof.
  intros DR H b Hb. destruct (ents (q * DPB + b)) as [[nm i]|] eqn:E; auto. exfalso.
  destruct (dr_some _ _ _ _ DR _ _ _ E) as (Hk & Hnk & Hi & HB). pose proof (off_at q b Hb) as EO. pose proof (DSDPB g OK) as B. pose proof (DS_pos g OK).
  assert (Y : (b + 1) * DS <= DPB * DS) by (apply N.mul_le_mono_r; lia).
  assert (Z : get32 (a_byte a) (off (q * DPB + b)) = 0).
  { unfold get32. rewrite EO. pose proof (H (b * DS) ltac:(lia)) as Q0. pose proof (H (b * DS + 1) ltac:(lia)) as Q1.
    pose proof (H (b * DS + 2) ltac:(lia)) as Q2. pose proof (H (b * DS + 3) ltac:(lia)) as Q3. rewrite !N.add_assoc in *. rewrite Q0, Q1, Q2, Q3. reflexivity. }
  rewrite (get32_le g OK i) in Z; [lia|lia|]. intros x Hx. rewrite HB by lia. apply (dirent_ino g OK); auto.
Qed.

Lemma blk_in n q : n <= DIRENTS_MAX g -> q * DPB < n -> q < INODE_DATA_BLOCKS g.
Proof.
  intros H1 H2. destruct (off_LM g OK (q * DPB) ltac:(lia)) as [_ L]. rewrite (off_div0 g OK) in L. pose proof (DPB_pos g OK).
  pose proof (proj1 (idx_at q 0 ltac:(lia))) as E. rewrite N.add_0_r in E. now rewrite E in L.
Qed.

(** * Enumeration *)
Lemma get_name_spec nm d : forall r o, (r <= length nm + N.to_nat (NMAX g - nlen nm))%nat -> nlen nm <= NMAX g ->
  (forall k, k < nlen nm -> nbyte nm k <> 0) -> (length nm <= r)%nat ->
  (forall x, x < nlen nm -> d (o + x) = nbyte nm x) -> ((length nm < r)%nat -> d (o + nlen nm) = 0) -> get_name r d o = nm.
Proof.
  induction nm as [|y nm IH]; intros r o Hr HN HZ HL HD HE.
  - destruct r; [reflexivity|]. cbn [get_name]. cbn in HE. rewrite N.add_0_r in HE. rewrite HE by lia. reflexivity.
  - destruct r; [cbn in HL; lia|]. cbn [get_name]. unfold nlen, lenN in *. cbn [length] in *.
    pose proof (HD 0 ltac:(lia)) as H0. rewrite N.add_0_r in H0. rewrite H0. pose proof (HZ 0 ltac:(lia)) as Z0.
    change (nbyte (y :: nm) 0) with y in *. destruct (N.eqb_spec y 0); [congruence|]. f_equal.
    assert (NB : forall k, nbyte (y :: nm) (k + 1) = nbyte nm k).
    { intros k. unfold nbyte, nthN. replace (N.to_nat (k + 1)) with (S (N.to_nat k)) by lia. reflexivity. }
    apply IH; try lia.
    + intros k Hk. rewrite <- NB. apply HZ. lia.
    + intros x Hx. rewrite <- NB, <- HD by lia. f_equal. lia.
    + intros. rewrite <- HE by lia. f_equal. lia.
Qed.

(** First populated slot at or after [k]. *)
Definition next_ent (n : N) (ents : N -> option (name * N)) (k : N) (r : option (name * N) * N) : Prop :=
  match r with
  | (Some e, k') => k <= k' < n /\ ents k' = Some e /\ forall j, k <= j < k' -> ents j = None
  | (None, _) => forall j, k <= j -> ents j = None
  end.

Lemma read_block_spec a n ents d q m : DirRep a n ents -> BA a n d q m ->
  forall r b, b + N.of_nat r = m ->
  (exists k nm i, b <= k < m /\ ents (q * DPB + k) = Some (nm, i) /\ (forall j, b <= j < k -> ents (q * DPB + j) = None) /\
     read_block g r b (q * DPB + b) d = (Some (nm, i), q * DPB + k)) \/
  ((forall j, b <= j < m -> ents (q * DPB + j) = None) /\ read_block g r b (q * DPB + b) d = (None, q * DPB + m)).
Proof.
  intros DR B. induction r; intros b Hr; cbn [read_block].
  - right. split; [intros; lia|]. now replace m with b by lia.
  - destruct (ents (q * DPB + b)) as [[nm i]|] eqn:E.
    + left. exists b, nm, i. destruct (slot_some a n ents DR d q m b nm i B ltac:(lia) E) as (G1 & G2 & G3 & G4).
      rewrite G1. destruct (N.eqb_spec i INODE_INVALID); [unfold INODE_INVALID in *; congruence|]. cbn [negb]. split; [lia|]. split; auto.
      split; [intros; lia|]. destruct G3 as (L & Z & _). f_equal. f_equal. f_equal. apply get_name_spec; auto; unfold nlen, lenN in *; try lia.
      * intros x Hx. apply G4. lia.
      * intros Hl. rewrite G4 by lia. unfold nbyte, nthN. apply nth_overflow. lia.
    + rewrite (slot_none a n ents DR d q m b B ltac:(lia) E), N.eqb_refl. cbn [negb].
      destruct (IHr (b + 1) ltac:(lia)) as [(k & nm & i & K1 & K2 & K3 & K4)|(K1 & K2)].
      * left. exists k, nm, i. split; [lia|]. split; auto. split.
        { intros j Hj. destruct (N.eq_dec j b) as [->|]; auto. apply K3. lia. }
        rewrite <- K4. f_equal. lia.
      * right. split. { intros j Hj. destruct (N.eq_dec j b) as [->|]; auto. apply K1. lia. } rewrite <- K2. f_equal. lia.
Qed.

Variable C0 : mroot.
Variable D0 : N -> blk.
Variable R0 : bool.
Notation VOL := (VOL g C0 D0 R0).

Lemma lookup_loop_spec V os s nm a n ents : DirRep a n ents -> 1 <= nlen nm <= NMAX g -> (forall k, k < nlen nm -> nbyte nm k <> 0) ->
  forall fuel c q idx f, VOL V ((true, c) :: os) s -> V (c_ino c) = Some a -> (idx < n -> idx = q * DPB) -> idx <= n -> n - idx <= N.of_nat fuel ->
  nomatch ents nm idx -> FF ents idx f ->
  exists c', csame c c' /\ VOL V ((true, c') :: os) s /\
   ((exists k i f', ents k = Some (nm, i) /\ lookup_loop g fuel idx n nm f (s, c) = (Ok (Some (k, i), k, f'), (s, c'))) \/
    (nomatch ents nm n /\ exists f', FF ents n f' /\ lookup_loop g fuel idx n nm f (s, c) = (Ok (None, n, f'), (s, c')))).
Proof.
  intros DR HL HZ. assert (N32 : n <= UINT32_MAX) by (pose proof (dr_n _ _ _ _ DR); unfold DIRENTS_MAX in *; lia).
  pose proof (DPB_pos g OK) as DP.
  induction fuel; intros c q idx f HV Va Hq Hi Hf NM F; cbn [lookup_loop].
  - exists c. split; [apply (csame_refl g OK)|]. split; auto. right. assert (idx = n) by lia. subst idx. split; auto. exists f. auto.
  - destruct (N.ltb_spec idx n) as [L|L].
    2:{ exists c. split; [apply (csame_refl g OK)|]. split; auto. right. assert (idx = n) by lia. subst idx. split; auto. exists f. auto. }
    pose proof (Hq L) as EQ. pose proof (proj1 (idx_at q 0 ltac:(lia))) as ED. rewrite N.add_0_r in ED. rewrite <- EQ in ED. rewrite ED.
    destruct (vol_seekread g OK C0 D0 R0 V c os s q HV) as (a' & r & c' & Va' & RN & SM & HV' & HR).
    { apply (blk_in n); [apply DR|lia]. }
    assert (a' = a) by congruence. subst a'.
    assert (Va2 : V (c_ino c') = Some a) by (rewrite (ino_same g OK _ _ SM); auto).
    destruct r as [d|e].
    + set (last := N.min DPB (n - idx)).
      assert (B : BA a n d q last) by (apply (BA_seek a n ents DR); auto; unfold last; lia).
      destruct (lookup_block_spec a n ents DR nm d q last B N32 HL HZ (N.to_nat last) 0 f) as (f' & [(k & i & K1 & K2 & K3)|(K1 & K2 & K3)]);
        [lia|now rewrite N.add_0_r, <- EQ|now rewrite N.add_0_r, <- EQ| |].
      * exists c'. split; auto. split; auto. left. exists (q * DPB + k), i, f'. split; auto.
        unfold bind at 1, attempt at 1. rewrite RN. cbn [fst snd]. fold last. rewrite EQ, K3. reflexivity.
      * rewrite <- EQ in K1, K2, K3.
        destruct (IHfuel c' (q + 1) (idx + last) f' HV' Va2) as (c2 & S2 & HV2 & X); [unfold last; lia|unfold last; lia|unfold last; lia|auto|auto|].
        exists c2. split; [eapply (csame_trans g OK); eauto|]. split; auto.
        assert (RUN : forall y, lookup_loop g fuel (idx + last) n nm f' (s, c') = y ->
          bind (attempt (RedInodeDataSeekAndRead g q)) (fun r => match r with
             | Ok d => match lookup_block g (N.to_nat (N.min DPB (n - idx))) 0 idx nm f d with
                | (Some (b, ino), free') => ret (Some (idx + b, ino), idx + b, free')
                | (None, free') => lookup_loop g fuel (idx + N.min DPB (n - idx)) n nm free' end
             | Err ENODATA => lookup_loop g fuel (idx + DPB) n nm (if f =? INV then idx else f)
             | Err e => fail e end) (s, c) = y).
        { intros y Hy. unfold bind at 1, attempt at 1. rewrite RN. fold last. rewrite K3. exact Hy. }
        destruct X as [(k & i & f2 & X1 & X2)|(X1 & f2 & X2 & X3)].
        -- left. exists k, i, f2. split; auto.
        -- right. split; auto. exists f2. split; auto.
    + destruct HR as [-> HZ'].
      pose proof (hole a n ents q DR HZ') as HH.
      assert (LT : idx + DPB <= n).
      { destruct (N.le_gt_cases (idx + DPB) n) as [|G]; auto. exfalso. apply (dr_last _ _ _ _ DR); [lia|].
        replace (n - 1) with (q * DPB + (n - 1 - q * DPB)) by lia. apply HH. lia. }
      destruct (IHfuel c' (q + 1) (idx + DPB) (if f =? INV then idx else f) HV' Va2) as (c2 & S2 & HV2 & X); [lia|lia|lia| | |].
      * intros j i Hj X. destruct (N.lt_ge_cases j idx) as [G|G]; [eapply NM; eauto|].
        replace j with (q * DPB + (j - q * DPB)) in X by lia. rewrite HH in X by lia. discriminate.
      * right. destruct (N.eqb_spec f INV) as [->|Fn].
        -- split; [unfold INV, UINT32_MAX in *; lia|]. split; [lia|]. replace idx with (q * DPB + 0) by lia. apply HH. lia.
        -- destruct F as [[F1 F2]|(F1 & F2 & F3)]; [congruence|]. split; auto. split; auto. lia.
      * exists c2. split; [eapply (csame_trans g OK); eauto|]. split; auto.
        assert (RUN : forall y, lookup_loop g fuel (idx + DPB) n nm (if f =? INV then idx else f) (s, c') = y ->
          bind (attempt (RedInodeDataSeekAndRead g q)) (fun r => match r with
             | Ok d => match lookup_block g (N.to_nat (N.min DPB (n - idx))) 0 idx nm f d with
                | (Some (b, ino), free') => ret (Some (idx + b, ino), idx + b, free')
                | (None, free') => lookup_loop g fuel (idx + N.min DPB (n - idx)) n nm free' end
             | Err ENODATA => lookup_loop g fuel (idx + DPB) n nm (if f =? INV then idx else f)
             | Err e => fail e end) (s, c) = y).
        { intros y Hy. unfold bind at 1, attempt at 1. rewrite RN. exact Hy. }
        destruct X as [(k & i & f2 & X1 & X2)|(X1 & f2 & X2 & X3)].
        -- left. exists k, i, f2. split; auto.
        -- right. split; auto. exists f2. split; auto.
Qed.

Lemma VOL_mounted V b c os s : VOL V ((b, c) :: os) s -> CINODE_IS_MOUNTED g c = true /\ CINODE_IS_DIRTY g c = c_dirty c.
Proof.
  intros (pm & H1 & H2 & H3 & H4). destruct (H3 _ (or_introl eq_refl)) as (A & _). cbn [snd] in A.
  split; [eapply CM_mounted|eapply CM_isdirty]; eauto.
Qed.

(** What a lookup of [nm] in a directory with entries [ents] reports. *)
Definition lookup_res (n : N) (ents : N -> option (name * N)) (nm : name) (r : res lookup) : Prop :=
  if nlen nm =? 0 then r = Err EINVAL else
  if NMAX g <? nlen nm then r = Err ENAMETOOLONG else
  (exists k i, ents k = Some (nm, i) /\ r = Ok (Found k i)) \/
  (forall k i, ents k <> Some (nm, i)) /\ exists f, r = Ok (NotFound f) /\
     (f = INV /\ n = DIRENTS_MAX g /\ (forall j, j < DIRENTS_MAX g -> ents j <> None) \/ f < DIRENTS_MAX g /\ f <> INV /\ f <= n /\ ents f = None).

Lemma vol_lookup V c os s nm a n ents : VOL V ((true, c) :: os) s -> c_dir c = true -> V (c_ino c) = Some a -> DirRep a n ents ->
  (forall k, k < nlen nm -> nbyte nm k <> 0) ->
  exists r c', RedDirEntryLookup g nm (s, c) = (r, (s, c')) /\ csame c c' /\ VOL V ((true, c') :: os) s /\ lookup_res n ents nm r.
Proof.
  intros HV HD Va DR HZ. destruct (VOL_mounted _ _ _ _ _ HV) as [HM _]. unfold RedDirEntryLookup, lookup_res. unfold bind at 1, getc at 1. cbn [snd].
  rewrite HM, HD. cbn [negb].
  destruct (N.eqb_spec (nlen nm) 0) as [Z|Z]. { exists (Err EINVAL), c. split; [reflexivity|]. split; [apply (csame_refl g OK)|auto]. }
  destruct (N.ltb_spec (NMAX g) (nlen nm)) as [L|L]. { exists (Err ENAMETOOLONG), c. split; [reflexivity|]. split; [apply (csame_refl g OK)|auto]. }
  destruct (VOL_V g OK C0 D0 R0 _ _ _ _ _ HV) as (a' & Va' & ES & _). assert (a' = a) by congruence. subst a'.
  rewrite <- ES, (dr_size _ _ _ _ DR), (idx_dsize g OK) by apply DR.
  destruct (lookup_loop_spec V os s nm a n ents DR ltac:(lia) HZ (N.to_nat n) c 0 0 INV HV Va) as (c' & SM & HV' & X); try lia.
  { intros j i Hj. lia. } { left. split; auto. intros; lia. }
  destruct X as [(k & i & f' & X1 & X2)|(X1 & f' & X2 & X3)].
  - exists (Ok (Found k i)), c'. split; [unfold bind; rewrite X2; reflexivity|]. split; auto. split; auto. left. eauto.
  - eexists _, c'. split; [unfold bind; rewrite X3, N.eqb_refl; reflexivity|]. split; auto. split; auto. right. split.
    + intros k i X. destruct (dr_some _ _ _ _ DR _ _ _ X) as [Hk _]. eapply X1; eauto.
    + eexists. split; [reflexivity|]. pose proof (dr_n _ _ _ _ DR) as NB. destruct X2 as [[-> F]|(F1 & F2 & F3)].
      * rewrite N.eqb_refl. cbn [andb]. destruct (N.ltb_spec n (DIRENTS_MAX g)) as [G|G]; [right|left; assert (EN : n = DIRENTS_MAX g) by lia; rewrite <- EN; auto].
        unfold INV, DIRENTS_MAX in *. split; auto. split; [lia|]. split; [lia|].
        destruct (ents n) as [[? ?]|] eqn:E; auto. destruct (dr_some _ _ _ _ DR _ _ _ E). lia.
      * destruct (N.eqb_spec f' INV); [congruence|]. cbn [andb]. right. split; [lia|]. split; auto. split; [lia|auto].
Qed.

Lemma read_loop_spec V os s a n ents : DirRep a n ents ->
  forall fuel c idx, VOL V ((true, c) :: os) s -> V (c_ino c) = Some a -> n - idx <= N.of_nat fuel ->
  exists r c', read_loop g fuel idx n (s, c) = (Ok r, (s, c')) /\ csame c c' /\ VOL V ((true, c') :: os) s /\ next_ent n ents idx r.
Proof.
  intros DR. pose proof (DPB_pos g OK) as DP.
  assert (END : forall idx, n <= idx -> next_ent n ents idx (None, idx)).
  { intros idx Hi j Hj. destruct (ents j) as [[? ?]|] eqn:E; auto. destruct (dr_some _ _ _ _ DR _ _ _ E). lia. }
  assert (STEP : forall idx idx' r, idx <= idx' -> (forall j, idx <= j < idx' -> ents j = None) -> next_ent n ents idx' r -> next_ent n ents idx r).
  { intros idx idx' [[e|] k'] Hi HN.
    - intros (A & B & C). split; [lia|]. split; auto. intros j Hj. destruct (N.lt_ge_cases j idx'); [apply HN|apply C]; lia.
    - intros A j Hj. destruct (N.lt_ge_cases j idx'); [apply HN|apply A]; lia. }
  induction fuel; intros c idx HV Va Hf; cbn [read_loop].
  - exists (None, idx), c. split; [reflexivity|]. split; [apply (csame_refl g OK)|]. split; auto. apply END. lia.
  - destruct (N.ltb_spec idx n) as [L|L].
    2:{ exists (None, idx), c. split; [reflexivity|]. split; [apply (csame_refl g OK)|]. split; auto. }
    pose proof (idx_eq g OK idx) as EI. pose proof (idx_ub g OK idx) as UI. rewrite N.mul_comm in EI.
    revert EI UI. generalize (idx / DPB), (idx mod DPB). intros q b EI UI.
    destruct (vol_seekread g OK C0 D0 R0 V c os s q HV) as (a' & r & c' & Va' & RN & SM & HV' & HR).
    { apply (blk_in n); [apply DR|lia]. }
    assert (a' = a) by congruence. subst a'.
    assert (Va2 : V (c_ino c') = Some a) by (rewrite (ino_same g OK _ _ SM); auto).
    unfold bind at 1, attempt at 1. rewrite RN.
    destruct r as [d|e].
    + set (m := N.min DPB (n - q * DPB)).
      assert (B : BA a n d q m) by (apply (BA_seek a n ents DR); auto; unfold m; lia).
      destruct (read_block_spec a n ents d q m DR B (N.to_nat (m - b)) b) as [(k & nm & i & K1 & K2 & K3 & K4)|(K1 & K2)]; [unfold m; lia| |].
      * rewrite <- EI in K4. rewrite K4. exists (Some (nm, i), q * DPB + k), c'. split; [reflexivity|]. split; auto. split; auto. split; [unfold m in *; lia|].
        split; auto. intros j Hj. replace j with (q * DPB + (j - q * DPB)) by lia. apply K3. lia.
      * rewrite <- EI in K2. rewrite K2. destruct (IHfuel c' (q * DPB + m) HV' Va2) as (r2 & c2 & R2 & S2 & HV2 & X2); [unfold m; lia|].
        exists r2, c2. split; auto. split; [eapply (csame_trans g OK); eauto|]. split; auto. eapply STEP; [| |exact X2]; [unfold m; lia|].
        intros j Hj. replace j with (q * DPB + (j - q * DPB)) by lia. apply K1. lia.
    + destruct HR as [-> HZ'].
      pose proof (hole a n ents q DR HZ') as HH.
      destruct (IHfuel c' (idx + (DPB - b)) HV' Va2) as (r2 & c2 & R2 & S2 & HV2 & X2); [lia|].
      exists r2, c2. split; auto. split; [eapply (csame_trans g OK); eauto|]. split; auto. eapply STEP; [| |exact X2]; [lia|].
      intros j Hj. replace j with (q * DPB + (j - q * DPB)) by lia. apply HH. lia.
Qed.

Lemma vol_dirread V c os s idx a n ents : VOL V ((true, c) :: os) s -> c_dir c = true -> V (c_ino c) = Some a -> DirRep a n ents ->
  exists (e : option (name * N)) k c', RedDirEntryRead g idx (s, c) = (Ok (e, if e then k + 1 else n), (s, c')) /\ csame c c' /\ VOL V ((true, c') :: os) s /\
    next_ent n ents idx (e, k).
Proof.
  intros HV HD Va DR. destruct (VOL_mounted _ _ _ _ _ HV) as [HM _]. unfold RedDirEntryRead. unfold bind at 1, getc at 1. cbn [snd].
  rewrite HM, HD. cbn [negb].
  destruct (VOL_V g OK C0 D0 R0 _ _ _ _ _ HV) as (a' & Va' & ES & _). assert (a' = a) by congruence. subst a'.
  rewrite <- ES, (dr_size _ _ _ _ DR), (idx_dsize g OK) by apply DR.
  destruct (read_loop_spec V os s a n ents DR (N.to_nat n) c idx HV Va) as ([e k] & c' & RN & SM & HV' & X); [lia|].
  exists e, k, c'. split; [|auto]. unfold bind. rewrite RN. destruct e; reflexivity.
Qed.
End DirP2.
