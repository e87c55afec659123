(** Writing file data. *)
From Verif Require Import Base Count FsState FsImap FsInode FsData FsTree FsImapProof FsWp FsInv FsStep FsSeek FsBranch FsRead.
Ltac Zify.zify_post_hook ::= idtac.

Section Write.
Variable g : cfg.
Hypothesis OK : cfg_ok g.
Set Default Proof Using "OK".

(** Effect of an operation on inode i that changes at most the blocks in P. *)
Record EF (i : N) (P : N -> Prop) (pm : pmap) (s : st) (pm' : pmap) (s' : st) : Prop := {
  ef_pm : forall j q, j <> i -> pm' j q = pm j q;
  ef_blk : forall j m x, m < INODE_DATA_BLOCKS g -> (j <> i \/ ~ P m) -> blkc g pm' s' j m x = blkc g pm s j m x;
  ef_low : lows g i s s' }.
Lemma EF_refl i P pm s : EF i P pm s pm s.
Proof. constructor; auto. apply (lows_refl g OK). Qed.
Lemma EF_weak i (P Q : N -> Prop) pm s pm' s' : (forall m, P m -> Q m) -> EF i P pm s pm' s' -> EF i Q pm s pm' s'.
Proof. intros H [A B C]. constructor; auto. intros j m x Hm [|Hn]; apply B; auto. Qed.
Lemma EF_trans i P pm s pm1 s1 pm2 s2 : EF i P pm s pm1 s1 -> EF i P pm1 s1 pm2 s2 -> EF i P pm s pm2 s2.
Proof.
  intros [A B C] [A' B' C']. constructor.
  - intros. rewrite A', A; auto.
  - intros. rewrite B', B; auto.
  - eapply (lows_trans g OK); eauto.
Qed.
Lemma BB_EF i l pm s pm' s' : l < INODE_DATA_BLOCKS g -> BB g i l pm s pm' s' -> EF i (fun m => m = l) pm s pm' s'.
Proof.
  intros Hl B. constructor.
  - intros. apply (bb_pm _ _ _ _ _ _ _ B). auto.
  - intros. apply (BB_blkc g OK i l); auto.
  - apply B.
Qed.

Definition MAXCOST : N := if 0 <? DINDIR_POINTERS g then 3 else if NDIR g <? IE g then 2 else 1.
Lemma bcost_max pm s c l depth : CS g pm c l -> bcost s c depth <= MAXCOST.
Proof.
  intros S. unfold bcost, MAXCOST, dcost, icost, tcost.
  assert (Nd : forall b, need s b <= 1) by (intros; unfold need; destruct (_ || _); lia).
  pose proof (Nd (c_db c)) as N1. pose proof (Nd (c_ib c)) as N2. pose proof (Nd (c_dat c)) as N3. clear Nd.
  pose proof (s_at _ _ _ _ S) as (A1 & A2 & A3 & A4). rewrite (s_l _ _ _ _ S) in *. rewrite A3, A4.
  pose proof (ok_IE g OK). unfold DINDIR_POINTERS.
  destruct (co_cases g OK l A1) as [? ? Ed Ei ? ? ?|k ? ? ? ? Ed Ei ? ? ? ?|d k ? ? ? ? ? Ed Ei ? ? ? ?]; rewrite Ed, Ei;
  destruct (N.ltb_spec 0 (IE g - NDIR g - NIND g)), (N.ltb_spec (NDIR g) (IE g)), depth; lia.
Qed.

Variable C0 : mroot.
Variable D0 : N -> blk.
Variable R0 : bool.
Notation Core := (Core g C0 D0 R0).
Notation WK := (WK g C0 D0 R0).

Definition WS (L : N) (pm : pmap) (s : st) (c : cin) : Prop :=
  WK L pm s c /\ c_dirty c = true /\ i_blocks (c_i c) = nblk g pm (c_ino c).

Lemma WS_csame L pm s c c' : WS L pm s c -> csame c c' -> CW g pm c' -> WS L pm s c'.
Proof.
  intros (W & D & B) SM W'. pose proof SM as (E1 & E2 & E3 & E4 & E5 & E6 & E7).
  split; [|split]; [eapply (WK_csame g OK); eauto|congruence|congruence].
Qed.
Lemma WS_L L L' pm s c : L <= L' -> L' <= INODE_SIZE_MAX g -> WS L pm s c -> WS L' pm s c.
Proof. intros H1 H2 ((K & M & W) & D & B). split; [split; [|split]|split]; auto. eapply (Core_L OK); eauto. Qed.

(** Effect on the inode structure and the volume. *)
Definition ST (P : N -> Prop) (pm : pmap) (s : st) (c : cin) (pm' : pmap) (s' : st) (c' : cin) : Prop :=
  cid c c' /\ meta_same (c_i c) (c_i c') /\ EF (c_ino c) P pm s pm' s'.
Lemma ST_csame P pm s c c' : csame c c' -> ST P pm s c pm s c'.
Proof.
  intros SM. destruct (csame_cid g OK _ _ SM) as [A B]. split; [|split]; auto. rewrite B. apply (meta_refl g OK). apply EF_refl.
Qed.
Lemma ST_refl P pm s c : ST P pm s c pm s c.
Proof. apply ST_csame. apply (csame_refl g OK). Qed.
Lemma ST_trans P pm s c pm1 s1 c1 pm2 s2 c2 :
  ST P pm s c pm1 s1 c1 -> ST P pm1 s1 c1 pm2 s2 c2 -> ST P pm s c pm2 s2 c2.
Proof.
  intros (A1 & A2 & A3) (B1 & B2 & B3). split; [|split].
  - eapply (cid_trans g OK); eauto.
  - eapply (meta_trans g OK); eauto.
  - destruct A1 as [E _]. rewrite E in B3. eapply EF_trans; eauto.
Qed.
Lemma ST_weak (P Q : N -> Prop) pm s c pm' s' c' : (forall m, P m -> Q m) -> ST P pm s c pm' s' c' -> ST Q pm s c pm' s' c'.
Proof. intros H (A & B & C). split; [|split]; auto. eapply EF_weak; eauto. Qed.
Lemma ST_ino P pm s c pm' s' c' : ST P pm s c pm' s' c' -> c_ino c' = c_ino c.
Proof. intros ((E & _) & _); auto. Qed.
Lemma ST_size P pm s c pm' s' c' : ST P pm s c pm' s' c' -> i_size (c_i c') = i_size (c_i c).
Proof. intros (_ & (E & _) & _); auto. Qed.

Lemma path_nz i0 io L pm D s i l depth p : Core i0 io L pm D s -> l < INODE_DATA_BLOCKS g ->
  pm i (pT g l) <> 0 -> onpath g l depth p -> pm i p <> 0.
Proof.
  intros K Hl Hp. pose proof (r_zero (k_rep K)) as RZ.
  assert (HI : co_ie g l <> None -> pm i (pI g l) <> 0).
  { intros Hx Z. apply Hp. unfold pT. destruct (co_ie g l) as [k|] eqn:E; [|congruence].
    destruct (pI_phgt g OK l Hl) as [X _]; [congruence|]. apply RZ; auto; try lia.
    destruct (co_cases g OK l Hl) as [? ? ? ? ? ? ?|? ? ? ? ? ? ? ? ? ? ?|? ? ? ? ? ? ? ? ? ? ? ? ?]; congruence. }
  assert (HD : co_de g l <> None -> pm i (pD g l) <> 0).
  { intros Hx Z. destruct (pD_phgt g OK l Hl Hx) as [X _].
    destruct (co_cases g OK l Hl) as [? ? Ed ? ? ? ?|? ? ? ? ? Ed ? ? ? ? ?|d k ? ? ? ? ? Ed Ei ? ? E1 ?]; try congruence.
    apply HI; [congruence|]. rewrite E1. change (P2 (co_e g l) d) with (child (pD g l) d). apply RZ; auto. lia. }
  intros [[Hx ->]|[(Hx & _ & ->)|[_ ->]]]; auto.
Qed.

(** Every block on the path from the inode to data block [l], that block included, is allocated
    and not part of the committed state. *)
Definition NewP (pm : pmap) (s : st) (i l : N) : Prop := forall p, onpath g l BD_DATA p -> pm i p <> 0 /\ com s (pm i p) = false.
Lemma NewP_cost pm s c l : CS g pm c l -> NewP pm s (c_ino c) l -> bcost s c BD_DATA = 0.
Proof.
  intros S H. pose proof (s_at _ _ _ _ S) as (A1 & A2 & A3 & A4). rewrite (s_l _ _ _ _ S) in *.
  assert (Z : forall b, b <> 0 -> com s b = false -> need s b = 0).
  { intros b Hb Hc. unfold need. destruct (N.eqb_spec b 0); [contradiction|]. now rewrite Hc. }
  unfold bcost, dcost, icost, tcost.
  assert (E1 : match c_de c with Some _ => need s (c_db c) | None => 0 end = 0).
  { destruct (c_de c) eqn:E; auto. rewrite (s_db _ _ _ _ S) by congruence. destruct (H (pD g l)) as [X Y]; [left; split; congruence|auto]. }
  assert (E2 : match c_ie c with Some _ => need s (c_ib c) | None => 0 end = 0).
  { destruct (c_ie c) eqn:E; auto. rewrite (s_ib _ _ _ _ S) by congruence. destruct (H (pI g l)) as [X Y]; [right; left; sp; congruence|auto]. }
  rewrite E1, E2. rewrite (s_dat _ _ _ _ S). destruct (H (pT g l)) as [X Y]; [right; right; auto|]. now rewrite Z.
Qed.

(** Branch the path to the data block that was just sought. *)
Lemma branch_data L pm s c l fbuf :
  WS L pm s c -> CS g pm c l -> l * BS g < L -> (R0 = true -> pm (c_ino c) (pT g l) <> 0) ->
  ((FreeBlockCount g s < MAXCOST /\ ~ NewP pm s (c_ino c) l) /\ BranchBlock g BD_DATA fbuf (s, c) = (Err ENOSPC, (s, c))) \/
  exists pm' s' c', BranchBlock g BD_DATA fbuf (s, c) = (Ok tt, (s', c')) /\ WS L pm' s' c' /\ CS g pm' c' l /\
    (ST (fun m => m = l) pm s c pm' s' c' /\ NewP pm' s (c_ino c) l) /\ pm' (c_ino c) (pT g l) <> 0 /\ com s (pm' (c_ino c) (pT g l)) = false /\
    (forall m, m < INODE_DATA_BLOCKS g -> m <> l -> pm' (c_ino c) (pT g m) = pm (c_ino c) (pT g m)) /\
    (fbuf = true -> forall x, blkc g pm' s' (c_ino c) l x = blkc g pm s (c_ino c) l x).
Proof.
  intros ((K & M & W) & Hd & HB) S HL HR.
  pose proof (s_at _ _ _ _ S) as (A1 & _). rewrite (s_l _ _ _ _ S) in A1.
  destruct (BranchBlock_spec g OK C0 D0 R0 L pm s c l BD_DATA fbuf) as [[F R]|(pm' & s' & c' & F & R & PHx & T & U & _ & B)]; auto.
  { intros E p Hp. eapply path_nz; eauto. }
  - left. split; auto. split; [pose proof (bcost_max pm s c l BD_DATA S); lia|]. intros H. rewrite (NewP_cost pm s c l S H) in F. lia.
  - right. exists pm', s', c'. destruct PHx as [P1 P2 P3 P4 P5 P6 P7]. pose proof P3 as (E1 & _ & _ & _ & E5 & _).
    destruct (T (pT g l)) as [T1 T2]; [right; right; auto|]. split; auto. split; [|split; [|split; [|split; [|split; [|split]]]]]; auto.
    + split; [split; [|split]|split]; auto; try congruence.
      eapply (CS_CW g OK); eauto.
    + split; [|exact T]. split; [|split]; auto. now apply BB_EF.
    + intros m Hm Hn. apply (pT_ne_node g OK (c_ino c) l pm s pm' s'); auto.
Qed.

(** Store into the data block l of the inode, already branched. *)
Lemma data_store L pm s c l v :
  WS L pm s c -> l < INODE_DATA_BLOCKS g -> pm (c_ino c) (pT g l) <> 0 -> com s (pm (c_ino c) (pT g l)) = false ->
  let s' := dk_write (pm (c_ino c) (pT g l)) v s in
  WS L pm s' c /\ EF (c_ino c) (fun m => m = l) pm s pm s' /\ forall x, blkc g pm s' (c_ino c) l x = data_of g v x.
Proof.
  intros ((K & M & W) & Hd & HB) Hl Hp Hc s'. destruct (Core_blk OK K Hp) as (R & _).
  split; [|split].
  - split; [split; [|split]|split]; auto.
    + now apply (Core_data g OK).
    + eapply (CM_dk g OK); eauto. unfold s'. cbn. apply upd_other. pose proof (CM_blk g OK _ _ M). lia.
  - constructor; auto.
    + intros j m x Hm Hn. unfold blkc. destruct (N.eqb_spec (pm j (pT g m)) 0); auto. unfold s'. cbn. rewrite upd_other; auto.
      intros E. destruct (Core_inj OK K n E) as [-> E2]. apply (pT_inj g OK) in E2; auto. destruct Hn; auto.
    + intros b Hb. split; [reflexivity|]. right. unfold s'. cbn. apply upd_other. lia.
  - intros x. unfold blkc. destruct (N.eqb_spec (pm (c_ino c) (pT g l)) 0); [congruence|]. unfold s'. cbn. now rewrite upd_same.
Qed.

Lemma seekS L pm s c l : WS L pm s c -> l < INODE_DATA_BLOCKS g ->
  exists c', SeekInode g l (s, c) = (if pm (c_ino c) (pT g l) =? 0 then Err ENODATA else Ok tt, (s, c')) /\
    csame c c' /\ CS g pm c' l /\ WS L pm s c'.
Proof.
  intros W Hl. destruct (seek g OK C0 D0 R0 L pm s c l (proj1 W) Hl) as (c' & R & SM & S & W').
  exists c'. sp; auto. eapply WS_csame; eauto. eapply (CS_CW g OK); eauto.
Qed.

Definition anyb : N -> Prop := fun _ => True.

(** ENOSPC: nothing changed but the cached coordinates. *)
Definition NoSpace {A} (L : N) (pm : pmap) (s : st) (c : cin) (r : res A * (st * cin)) : Prop :=
  exists c', r = (Err ENOSPC, (s, c')) /\ csame c c' /\ WS L pm s c' /\ FreeBlockCount g s < MAXCOST.

(** The same, and the path to block [l] was not new. *)
Definition NoSpaceN {A} (l : N) (L : N) (pm : pmap) (s : st) (c : cin) (r : res A * (st * cin)) : Prop :=
  exists c', r = (Err ENOSPC, (s, c')) /\ csame c c' /\ WS L pm s c' /\ (FreeBlockCount g s < MAXCOST /\ ~ NewP pm s (c_ino c) l).

Lemma inblk start len : 0 < len -> start / BS g = (start + len - 1) / BS g -> 
  start mod BS g + len <= BS g.
Proof.
  intros H E. pose proof (off_eq g OK start) as Q1. pose proof (off_eq g OK (start + len - 1)) as Q2. rewrite <- E in Q2.
  pose proof (off_ub g OK (start + len - 1)) as U. revert Q1 Q2 U H. clear.
  generalize (start / BS g * BS g), (start mod BS g), ((start + len - 1) mod BS g). intros; lia.
Qed.

Lemma data_of_BData f : data_of g (BData f) = f. Proof. reflexivity. Qed.

Lemma WriteUnaligned_spec L pm s c start len src :
  WS L pm s c -> 0 < len -> start / BS g = (start + len - 1) / BS g -> start + len <= INODE_SIZE_MAX g ->
  (R0 = true -> pm (c_ino c) (pT g (start / BS g)) <> 0) ->
  NoSpaceN (start / BS g) L pm s c (WriteUnaligned g start len src (s, c)) \/
  exists pm' s' c', WriteUnaligned g start len src (s, c) = (Ok tt, (s', c')) /\
    WS (N.max L (start + len)) pm' s' c' /\ (ST (fun m => m = start / BS g) pm s c pm' s' c' /\ NewP pm' s' (c_ino c) (start / BS g)) /\
    (forall x, x < BS g -> blkc g pm' s' (c_ino c) (start / BS g) x =
       copyin (start mod BS g) len src (blkc g pm s (c_ino c) (start / BS g)) x).
Proof.
  intros W H1 H2 H3 HR. set (l := start / BS g) in *.
  pose proof (off_eq g OK start) as Q1. fold l in Q1.
  assert (Hl : l < INODE_DATA_BLOCKS g).
  { apply (div_ub g OK). unfold INODE_SIZE_MAX in H3. lia. }
  destruct (seekS L pm s c l W Hl) as (c1 & R & SM & S & W1).
  pose proof (ino_same g OK _ _ SM) as EI.
  assert (RUN : WriteUnaligned g start len src (s, c) =
    (BranchBlock g BD_DATA true ;;; c <- getc ;; lift (data_set g (c_dat c) (copyin (start mod BS g) len src))) (s, c1)).
  { unfold WriteUnaligned. fold l. rewrite <- H2, N.eqb_refl. cbn [negb]. unfold bind at 1, attempt at 1. rewrite R.
    destruct (pm (c_ino c) (pT g l) =? 0); reflexivity. }
  assert (HM : N.max L (start + len) <= INODE_SIZE_MAX g).
  { destruct W as ((K & _) & _). destruct (k_lim0 K). lia. }
  assert (W1' : WS (N.max L (start + len)) pm s c1) by (eapply WS_L; [| |exact W1]; lia).
  destruct (branch_data (N.max L (start + len)) pm s c1 l true W1' S) as [[(F & NN) RB]|(pm' & s' & c' & RB & W' & S' & (ST' & NP) & Nz & Cm & Oth & Keep)].
  { lia. }
  { now rewrite EI. }
  - left. exists c1. rewrite RUN. unfold bind at 1. rewrite RB. rewrite EI in NN. auto.
  - right. rewrite EI in *. pose proof (ST_ino _ _ _ _ _ _ _ ST') as EI'. rewrite EI in EI'.
    set (v := BData (copyin (start mod BS g) len src (data_of g (dk s' (pm' (c_ino c) (pT g l)))))).
    destruct (data_store (N.max L (start + len)) pm' s' c' l v) as (W2 & EF2 & B2); auto; try (rewrite EI'); auto.
    { assert (com s' (pm' (c_ino c) (pT g l)) = com s (pm' (c_ino c) (pT g l))) as ->; auto.
      destruct W' as ((K' & _) & _), W as ((K & _) & _). eapply (com_same g OK); eauto. }
    rewrite EI' in W2, EF2, B2.
    exists pm', (dk_write (pm' (c_ino c) (pT g l)) v s'), c'. split; [|split; [|split]]; auto.
    + rewrite RUN. unfold bind. rewrite RB. unfold getc, lift, data_set, modify. cbn [fst snd].
      rewrite (s_dat _ _ _ _ S'), EI'. reflexivity.
    + split.
      { eapply ST_trans; [apply ST_csame; eauto|]. eapply ST_trans; eauto. split; [|split]; [apply (cid_refl g OK)|apply (meta_refl g OK)|].
        now rewrite EI'. }
      intros p Hp. destruct (NP p Hp) as [N1 N2]. split; auto.
      destruct W2 as ((K2 & _) & _), W as ((K & _) & _). rewrite (com_same g OK _ _ _ _ _ _ _ _ _ _ _ _ _ _ _ _ K K2). exact N2.
    + intros x Hx. rewrite B2. unfold v. cbn. unfold copyin. destruct ((_ <=? x) && _); auto.
      rewrite <- Keep by auto. unfold blkc. destruct (N.eqb_spec (pm' (c_ino c) (pT g l)) 0); congruence.
Qed.

Lemma beyond L pm s c m : WK L pm s c -> m < INODE_DATA_BLOCKS g -> L <= m * BS g -> pm (c_ino c) (pT g m) = 0.
Proof.
  intros (K & _) Hm HL. destruct (N.eq_dec (pm (c_ino c) (pT g m)) 0) as [|Hz]; auto.
  pose proof (f_lim (k_lim0 K) _ Hz) as X. rewrite (lfirst_pT g OK) in X by auto. lia.
Qed.

Lemma ExpandPrepare_spec L pm s c :
  WS L pm s c -> 
  NoSpace L pm s c (ExpandPrepare g (s, c)) \/
  exists pm' s' c', ExpandPrepare g (s, c) = (Ok tt, (s', c')) /\ WS L pm' s' c' /\
    ST (fun m => i_size (c_i c) mod BS g <> 0 /\ m = i_size (c_i c) / BS g) pm s c pm' s' c' /\
    (i_size (c_i c) mod BS g <> 0 -> forall x, x < BS g -> blkc g pm' s' (c_ino c) (i_size (c_i c) / BS g) x =
       if i_size (c_i c) mod BS g <=? x then 0 else blkc g pm s (c_ino c) (i_size (c_i c) / BS g) x).
Proof.
  intros W. pose proof W as ((K & M & CWc) & Hd & HB). set (size := i_size (c_i c)) in *. set (l := size / BS g).
  assert (RUN : ExpandPrepare g (s, c) = if size mod BS g =? 0 then (Ok tt, (s, c)) else
     (r <- attempt (SeekInode g l) ;;
      match r with
      | Err ENODATA => ret tt
      | Ok _ => BranchBlock g BD_DATA true ;;;
            c <- getc ;; lift (data_set g (c_dat c) (fill0 (size mod BS g)))
      | Err e => fail e
      end) (s, c)).
  { unfold ExpandPrepare. unfold bind at 1, getc at 1. cbn [snd].
    rewrite (CM_isdirty g OK _ _ M), Hd. cbn [negb]. fold size l. destruct (size mod BS g =? 0); reflexivity. }
  rewrite RUN. clear RUN. destruct (N.eqb_spec (size mod BS g) 0) as [Z|Z].
  { right. exists pm, s, c. sp; auto; [apply ST_refl|congruence]. }
  assert (Hl : l < INODE_DATA_BLOCKS g).
  { pose proof (Core_size g OK _ _ _ _ _ _ _ _ _ K) as SZ. fold size in SZ.
    pose proof (off_eq g OK size) as Q. fold l in Q. unfold INODE_SIZE_MAX in SZ. 
    pose proof (BSp g OK). assert (l * BS g < INODE_DATA_BLOCKS g * BS g) by lia. nia. }
  fold l. destruct (seekS L pm s c l W Hl) as (c1 & R & SM & S & W1).
  pose proof (ino_same g OK _ _ SM) as EI.
  assert (RUN : (r <- attempt (SeekInode g l) ;;
      match r with
      | Err ENODATA => ret tt
      | Ok _ => BranchBlock g BD_DATA true ;;;
            c <- getc ;; lift (data_set g (c_dat c) (fill0 (size mod BS g)))
      | Err e => fail e
      end) (s, c) = if pm (c_ino c) (pT g l) =? 0 then (Ok tt, (s, c1)) else
     (BranchBlock g BD_DATA true ;;; c <- getc ;; lift (data_set g (c_dat c) (fill0 (size mod BS g)))) (s, c1)).
  { unfold bind at 1, attempt at 1. rewrite R. destruct (pm (c_ino c) (pT g l) =? 0); reflexivity. }
  rewrite RUN. clear RUN. destruct (N.eqb_spec (pm (c_ino c) (pT g l)) 0) as [Zp|Zp].
  { right. exists pm, s, c1. sp; auto; [now apply ST_csame|]. intros _ x Hx. unfold blkc. rewrite Zp. cbn. now destruct (_ <=? _). }
  destruct (branch_data L pm s c1 l true W1 S) as [[(F & NN) RB]|(pm' & s' & c' & RB & W' & S' & (ST' & NP) & Nz & Cm & Oth & Keep)].
  { pose proof (f_lim (k_lim0 K) _ Zp) as X. now rewrite (lfirst_pT g OK) in X by auto. }
  { now rewrite EI. }
  - left. exists c1. unfold bind at 1. rewrite RB. auto.
  - right. rewrite EI in *. pose proof (ST_ino _ _ _ _ _ _ _ ST') as EI'. rewrite EI in EI'.
    set (v := BData (fill0 (size mod BS g) (data_of g (dk s' (pm' (c_ino c) (pT g l)))))).
    destruct (data_store L pm' s' c' l v) as (W2 & EF2 & B2); auto; try (rewrite EI'); auto.
    { assert (com s' (pm' (c_ino c) (pT g l)) = com s (pm' (c_ino c) (pT g l))) as ->; auto.
      destruct W' as ((K' & _) & _). eapply (com_same g OK); eauto. }
    rewrite EI' in W2, EF2, B2.
    exists pm', (dk_write (pm' (c_ino c) (pT g l)) v s'), c'. split; [|split; [|split]]; auto.
    + unfold bind. rewrite RB. unfold getc, lift, data_set, modify. cbn [fst snd].
      rewrite (s_dat _ _ _ _ S'), EI'. reflexivity.
    + apply ST_weak with (fun m => m = l); [auto|].
      eapply ST_trans; [apply ST_csame; eauto|]. eapply ST_trans; eauto. split; [|split]; [apply (cid_refl g OK)|apply (meta_refl g OK)|].
      now rewrite EI'.
    + intros _ x Hx. rewrite B2. unfold v. cbn. unfold fill0. destruct (_ <=? x); auto.
      rewrite <- Keep by auto. unfold blkc. destruct (N.eqb_spec (pm' (c_ino c) (pT g l)) 0); congruence.
Qed.

(** k consecutive branched blocks *)
Definition pend (pm : pmap) (s : st) (i l b n : N) : Prop :=
  forall k, k < n -> pm i (pT g (l + k)) = b + k /\ b <> 0 /\ com s (b + k) = false.

Lemma io_write_spec : forall n L pm s c l b src,
  WS L pm s c -> l + N.of_nat n <= INODE_DATA_BLOCKS g -> pend pm s (c_ino c) l b (N.of_nat n) ->
  WS L pm (io_write g n b src s) c /\ EF (c_ino c) (fun m => l <= m < l + N.of_nat n) pm s pm (io_write g n b src s) /\
  forall k x, k < N.of_nat n -> x < BS g -> blkc g pm (io_write g n b src s) (c_ino c) (l + k) x = src (k * BS g + x).
Proof.
  induction n; intros L pm s c l b src W Hl HP; cbn [io_write].
  - sp; auto; [apply EF_refl|lia].
  - destruct (HP 0) as (P1 & P2 & P3); [lia|]. rewrite N.add_0_r in P1, P3. rewrite N.add_0_r in P1.
    destruct (data_store L pm s c l (BData src)) as (W1 & E1 & B1); auto; try lia; try congruence.
    rewrite P1 in W1, E1, B1. set (s1 := dk_write b (BData src) s) in *.
    destruct (IHn L pm s1 c (l + 1) (b + 1) (fun x => src (BS g + x)) W1) as (W2 & E2 & B2); try lia.
    { intros k Hk. destruct (HP (k + 1)) as (Q1 & Q2 & Q3); [lia|].
      rewrite <- !N.add_assoc, (N.add_comm 1 k). split; auto. split; [lia|]. exact Q3. }
    split; auto. split.
    + eapply EF_trans; [eapply EF_weak; [|exact E1]; cbv beta; intros; lia|eapply EF_weak; [|exact E2]; cbv beta; intros; lia].
    + intros k x Hk Hx. destruct (N.eq_dec k 0) as [->|Hk0].
      * rewrite N.add_0_r. rewrite (ef_blk _ _ _ _ _ _ E2) by (try lia; right; lia). rewrite B1. reflexivity.
      * replace (l + k) with (l + 1 + (k - 1)) by lia. rewrite B2 by lia. f_equal.
        replace (k * BS g) with (BS g + (k - 1) * BS g); [lia|]. rewrite N.mul_sub_distr_r, N.mul_1_l.
        assert (BS g <= k * BS g) by nia. lia.
Qed.

Lemma io_write_free : forall n b src s, FreeBlockCount g (io_write g n b src s) = FreeBlockCount g s.
Proof. induction n; intros; cbn [io_write]; auto. rewrite IHn. reflexivity. Qed.

Definition eL (L el' e : N) : N := if el' =? 0 then L else N.max L (e * BS g).

Lemma com_eq L pm s c L' pm' s' c' b : WS L pm s c -> WS L' pm' s' c' -> com s' b = com s b.
Proof. intros ((K & _) & _) ((K' & _) & _). eapply (com_same g OK); eauto. Qed.
Lemma L_max L pm s c : WS L pm s c -> L <= INODE_SIZE_MAX g.
Proof. intros ((K & _) & _). apply (k_lim0 K). Qed.

Lemma extent_branch_spec l : forall n L pm s c i next es el,
  WS L pm s c -> l + i + N.of_nat n <= INODE_DATA_BLOCKS g -> el <= i -> 0 < el + N.of_nat n ->
  pend pm s (c_ino c) (l + i - el) es el ->
  (next <> 0 -> el = 0 /\ 0 < N.of_nat n /\ c_dat c = pm (c_ino c) (pT g (l + i)) /\ c_dat c <> 0 /\
     com s (c_dat c) = false /\ (l + i + 1) * BS g <= L) ->
  (el <> 0 -> (l + i) * BS g <= L) ->
  (R0 = true -> forall m, l + i <= m < l + i + N.of_nat n -> pm (c_ino c) (pT g m) <> 0) ->
  exists re next' es' el' pm' s' c',
    extent_branch g n l i next es el (s, c) = (Ok (re, next', es', el'), (s', c')) /\
    WS (eL L el' (l + i - el + el' + (if next' =? 0 then 0 else 1))) pm' s' c' /\
    ST (fun m => l + i <= m < l + i - el + el' + (if next' =? 0 then 0 else 1)) pm s c pm' s' c' /\
    pend pm' s' (c_ino c) (l + i - el) es' el' /\ el <= el' <= el + N.of_nat n /\
    (re = None /\ 0 < el' \/ re = Some ENOSPC /\ next' = 0 /\ el' < el + N.of_nat n /\ FreeBlockCount g s' < MAXCOST) /\
    (next' <> 0 -> el' < el + N.of_nat n /\ c_dat c' = pm' (c_ino c) (pT g (l + i - el + el')) /\ c_dat c' = next' /\
       com s' (c_dat c') = false) /\
    (re = None -> next' = 0 -> el' = el + N.of_nat n) /\
    (next <> 0 -> 0 < el') /\
    (el' = 0 -> s' = s /\ pm' = pm /\ csame c c' /\ FreeBlockCount g s < MAXCOST).
Proof.
  pose proof (BSp g OK) as BP.
  induction n; intros L pm s c i next es el W HL Hel Hpos HP Hnext HLe HR; cbn [extent_branch].
  - exists None, next, es, el, pm, s, c. assert (next = 0) as ->.
    { destruct (N.eq_dec next 0) as [|Hn]; auto. destruct (Hnext Hn) as (_ & X & _). lia. }
    change (0 =? 0) with true. cbn iota. rewrite N.add_0_r. replace (l + i - el + el) with (l + i) by lia.
    sp; auto; try lia; try congruence.
    + unfold eL. destruct (N.eqb_spec el 0); auto. rewrite N.max_l; auto.
    + apply ST_refl.
    + left; split; auto; lia.
  - (* one block *)
    assert (STEP : (exists c1, (if next =? 0 then
            r <- attempt (SeekInode g (l + i)) ;;
            match r with
            | Ok _ | Err ENODATA => attempt (BranchBlock g BD_DATA false)
            | Err e => ret (Err e)
            end
          else ret (Ok tt)) (s, c) = (Ok (Err ENOSPC), (s, c1)) /\ csame c c1 /\ WS L pm s c1 /\ FreeBlockCount g s < MAXCOST /\ next = 0) \/
      (exists pm1 s1 c1, (if next =? 0 then
            r <- attempt (SeekInode g (l + i)) ;;
            match r with
            | Ok _ | Err ENODATA => attempt (BranchBlock g BD_DATA false)
            | Err e => ret (Err e)
            end
          else ret (Ok tt)) (s, c) = (Ok (Ok tt), (s1, c1)) /\ WS (N.max L ((l + i + 1) * BS g)) pm1 s1 c1 /\
        ST (fun m => m = l + i) pm s c pm1 s1 c1 /\ c_dat c1 = pm1 (c_ino c) (pT g (l + i)) /\ c_dat c1 <> 0 /\
        com s (c_dat c1) = false /\
        (forall m, m < INODE_DATA_BLOCKS g -> m <> l + i -> pm1 (c_ino c) (pT g m) = pm (c_ino c) (pT g m)))).
    { destruct (N.eqb_spec next 0) as [Hn|Hn].
      - destruct (seekS L pm s c (l + i) W ltac:(lia)) as (c1 & R & SM & S & W1).
        pose proof (ino_same g OK _ _ SM) as EI.
        assert (RUN : (r <- attempt (SeekInode g (l + i)) ;;
            match r with
            | Ok _ | Err ENODATA => attempt (BranchBlock g BD_DATA false)
            | Err e => ret (Err e)
            end) (s, c) = attempt (BranchBlock g BD_DATA false) (s, c1)).
        { unfold bind, attempt at 1. rewrite R. destruct (pm (c_ino c) (pT g (l + i)) =? 0); reflexivity. }
        rewrite RUN. clear RUN.
        assert (W1' : WS (N.max L ((l + i + 1) * BS g)) pm s c1).
        { eapply WS_L; [| |exact W1]; [lia|]. pose proof (L_max _ _ _ _ W). unfold INODE_SIZE_MAX in *.
          assert ((l + i + 1) * BS g <= BS g * INODE_DATA_BLOCKS g) by nia. lia. }
        destruct (branch_data _ pm s c1 (l + i) false W1' S) as [[(F & NN) RB]|(pm' & s' & c' & RB & W' & S' & (ST' & NP) & Nz & Cm & Oth & _)].
        { nia. }
        { rewrite EI. intros E. apply HR; auto. lia. }
        + left. exists c1. unfold attempt. rewrite RB. sp; auto.
        + right. rewrite EI in *. pose proof (ST_ino _ _ _ _ _ _ _ ST') as EI'. rewrite EI in EI'.
          exists pm', s', c'. unfold attempt. rewrite RB. split; auto. split; auto.
          assert (E : c_dat c' = pm' (c_ino c) (pT g (l + i))) by (rewrite (s_dat _ _ _ _ S'); now rewrite EI').
          rewrite E. sp; auto. eapply ST_trans; [apply ST_csame; eauto|exact ST'].
      - destruct (Hnext Hn) as (E0 & _ & E1 & E2 & E3 & E4). right. exists pm, s, c. sp; auto.
        + rewrite N.max_l; auto.
        + apply ST_refl. }
    unfold bind at 1.
    destruct STEP as [(c1 & R & SM & W1 & F & Hn)|(pm1 & s1 & c1 & R & W1 & ST1 & Dt & Dz & Dc & Oth)].
    + rewrite R. clear R. exists (Some ENOSPC), 0, es, el, pm, s, c1.
      change (0 =? 0) with true. cbn iota. rewrite N.add_0_r. replace (l + i - el + el) with (l + i) by lia.
      sp; auto; try lia; try congruence.
      * unfold eL. destruct (N.eqb_spec el 0); auto. rewrite N.max_l; auto.
      * now apply ST_csame.
      * right. sp; auto. lia.
    + rewrite R. clear R. unfold bind at 1, getc at 1. cbn [snd].
      pose proof (ST_ino _ _ _ _ _ _ _ ST1) as EI. 
      assert (CmE : forall b, com s1 b = com s b) by (intros; eapply com_eq; eauto).
      assert (PND : pend pm1 s1 (c_ino c) (l + i - el) es el).
      { intros k Hk. destruct (HP k Hk) as (Q1 & Q2 & Q3). rewrite Oth by lia. rewrite CmE. auto. }
      assert (REC : forall es1 el1, (el = 0 /\ es1 = c_dat c1 /\ el1 = 1) \/ (el <> 0 /\ c_dat c1 = es + el /\ es1 = es /\ el1 = el + 1) ->
        exists re next' es' el' pm' s' c',
        extent_branch g n l (i + 1) 0 es1 el1 (s1, c1) = (Ok (re, next', es', el'), (s', c')) /\
        WS (eL L el' (l + i - el + el' + (if next' =? 0 then 0 else 1))) pm' s' c' /\
        ST (fun m => l + i <= m < l + i - el + el' + (if next' =? 0 then 0 else 1)) pm s c pm' s' c' /\
        pend pm' s' (c_ino c) (l + i - el) es' el' /\ el <= el' <= el + N.of_nat (Datatypes.S n) /\
        (re = None /\ 0 < el' \/ re = Some ENOSPC /\ next' = 0 /\ el' < el + N.of_nat (Datatypes.S n) /\ FreeBlockCount g s' < MAXCOST) /\
        (next' <> 0 -> el' < el + N.of_nat (Datatypes.S n) /\ c_dat c' = pm' (c_ino c) (pT g (l + i - el + el')) /\ c_dat c' = next' /\
           com s' (c_dat c') = false) /\
        (re = None -> next' = 0 -> el' = el + N.of_nat (Datatypes.S n)) /\
        (next <> 0 -> 0 < el') /\
        (el' = 0 -> s' = s /\ pm' = pm /\ csame c c' /\ FreeBlockCount g s < MAXCOST)).
      { intros es1 el1 Hcase.
        assert (Eel : el1 = el + 1) by (destruct Hcase as [(-> & _ & ->)|(_ & _ & _ & ->)]; lia).
        assert (Ebase : l + (i + 1) - el1 = l + i - el) by lia.
        destruct (IHn (N.max L ((l + i + 1) * BS g)) pm1 s1 c1 (i + 1) 0 es1 el1 W1) as
          (re & next' & es' & el' & pm' & s' & c' & RR & W' & ST' & P' & B' & RE' & NX' & FU' & _ & _); try lia; try congruence.
        { rewrite Ebase, EI. intros k Hk. destruct Hcase as [(-> & -> & ->)|(Hne & Hd' & -> & ->)].
          - replace k with 0 by lia. rewrite !N.add_0_r, N.sub_0_r. rewrite CmE. auto.
          - destruct (N.eq_dec k el) as [->|Hk'].
            + replace (l + i - el + el) with (l + i) by lia. rewrite <- Dt, CmE, <- Hd'. split; auto. split; auto.
              destruct (HP 0) as (_ & X & _); [lia|]. exact X.
            + apply PND. lia. }
        { intros E m Hm. rewrite EI. rewrite Oth; [|lia|lia]. apply HR; auto. lia. }
        rewrite Ebase, EI in *.
        exists re, next', es', el', pm', s', c'.
        assert (El' : 1 <= el') by lia.
        assert (EQL : eL (N.max L ((l + i + 1) * BS g)) el' (l + i - el + el' + (if next' =? 0 then 0 else 1)) =
                      eL L el' (l + i - el + el' + (if next' =? 0 then 0 else 1))).
        { unfold eL. destruct (N.eqb_spec el' 0); [lia|].
          assert ((l + i + 1) * BS g <= (l + i - el + el' + (if next' =? 0 then 0 else 1)) * BS g).
          { apply N.mul_le_mono_r. destruct (next' =? 0); lia. } lia. }
        rewrite EQL in W'.
        split; [exact RR|]. split; [exact W'|]. split; [|split; [|split; [|split; [|split; [|split; [|split]]]]]]; auto; try lia.
        - eapply ST_trans.
          + eapply ST_weak; [|exact ST1]. cbv beta. intros m ->. destruct (next' =? 0); lia.
          + eapply ST_weak; [|exact ST']. cbv beta. intros m. destruct (next' =? 0); lia.
        - destruct RE' as [?|(? & ? & ? & ?)]; [left; auto|right; sp; auto; lia].
        - intros Hx. destruct (NX' Hx) as (? & ? & ? & ?). sp; auto. lia. }
      destruct (N.eqb_spec el 0) as [He|He].
      * apply REC. left. auto.
      * destruct (N.eqb_spec (c_dat c1) (es + el)) as [Hc|Hc].
        -- apply REC. right. auto.
        -- exists None, (c_dat c1), es, el, pm1, s1, c1.
           destruct (N.eqb_spec (c_dat c1) 0); [congruence|].
           replace (l + i - el + el) with (l + i) by lia. sp; auto; try lia; try congruence.
           ++ unfold eL. destruct (N.eqb_spec el 0); [congruence|]. exact W1.
           ++ eapply ST_weak; [|exact ST1]. cbv beta. lia.
           ++ left. split; auto. lia.
           ++ intros _. sp; auto; try lia. now rewrite CmE.
Qed.

Lemma write_aligned_spec l count src : forall fuel L pm s c idx next,
  WS L pm s c -> l + count <= INODE_DATA_BLOCKS g -> idx <= count -> count <= idx + N.of_nat fuel ->
  (next <> 0 -> idx < count /\ c_dat c = pm (c_ino c) (pT g (l + idx)) /\ c_dat c = next /\
     com s (c_dat c) = false /\ (l + idx + 1) * BS g <= L) ->
  (R0 = true -> count <= 1 /\ (idx < count -> pm (c_ino c) (pT g (l + idx)) <> 0)) ->
  exists re idx' pm' s' c',
    write_aligned_loop g fuel l count idx next src (s, c) = (Ok (re, idx'), (s', c')) /\
    WS (if idx' =? idx then L else N.max L ((l + idx') * BS g)) pm' s' c' /\
    ST (fun m => l + idx <= m < l + idx') pm s c pm' s' c' /\
    idx <= idx' <= count /\ (re = None /\ idx' = count \/ re = Some ENOSPC /\ idx' < count /\ FreeBlockCount g s' < MAXCOST) /\
    (next <> 0 -> idx < idx') /\
    (idx' = idx -> re <> None -> s' = s /\ pm' = pm /\ csame c c' /\ FreeBlockCount g s < MAXCOST) /\
    (forall k x, idx <= k < idx' -> x < BS g -> blkc g pm' s' (c_ino c) (l + k) x = src (k * BS g + x)).
Proof.
  pose proof (BSp g OK) as BP.
  induction fuel; intros L pm s c idx next W HL HI HF Hnext HR; cbn [write_aligned_loop];
    destruct (N.ltb_spec idx count) as [Hlt|Hge]; try lia;
    try (exists None, idx, pm, s, c; rewrite N.eqb_refl; sp; auto; try lia;
         solve [apply ST_refl|left; split; auto; lia|intros Hn; destruct (Hnext Hn); lia|congruence]).
  destruct (extent_branch_spec l (N.to_nat (count - idx)) L pm s c idx next 0 0 W) as
    (re & next' & es & el & pm1 & s1 & c1 & R1 & W1 & ST1 & P1 & B1 & RE1 & NX1 & FU1 & NZ1 & Z1); try (rewrite N2Nat.id); try lia; try congruence.
  { intros k Hk. lia. }
  { intros Hn. destruct (Hnext Hn) as (? & ? & ? & ? & ?). sp; auto; try lia; congruence. }
  { intros E m Hm. destruct (HR E) as [H1 H2]. assert (m = l + idx) as -> by lia. auto. }
  rewrite N.sub_0_r in *. rewrite N.add_0_l in *. rewrite N2Nat.id in *.
  pose proof (ST_ino _ _ _ _ _ _ _ ST1) as EI1.
  unfold bind at 1. rewrite R1. clear R1.
  destruct (N.eq_dec el 0) as [Zel|Nel].
  { (* nothing branched *)
    destruct RE1 as [[-> ?]|(-> & -> & Hel & HF1)]; [lia|]. subst el. change (0 <? 0) with false. cbn iota.
    destruct (Z1 eq_refl) as (-> & -> & SM & F).
    exists (Some ENOSPC), idx, pm, s, c1. rewrite N.eqb_refl. sp; auto; try lia.
    - apply ST_csame; auto. }
  assert (IO : io_range g es el = true).
  { apply (io_range_ok g OK C0 D0 R0 (eL L el (l + idx + el + (if next' =? 0 then 0 else 1))) pm1 Dnone s1 (c_ino c1) (c_i c1) (c_ino c) (l + idx)).
    - apply W1.
    - lia.
    - destruct (P1 0) as (_ & X & _); [lia|auto].
    - intros k Hk. apply P1; auto. }
  rewrite IO.
  unfold eL in W1. destruct (N.eqb_spec el 0); [congruence|].
  set (E := l + idx + el + (if next' =? 0 then 0 else 1)) in *.
  destruct (io_write_spec (N.to_nat el) (N.max L (E * BS g)) pm1 s1 c1 (l + idx) es (fun x => src (idx * BS g + x))) as (W2 & EF2 & BL2); auto.
  { lia. }
  { rewrite N2Nat.id. rewrite EI1. exact P1. }
  rewrite N2Nat.id in *. set (s2 := io_write g (N.to_nat el) es (fun x => src (idx * BS g + x)) s1) in *.
  assert (ST2 : ST (fun m => l + idx <= m < l + idx + el) pm1 s1 c1 pm1 s2 c1).
  { split; [|split]; [apply (cid_refl g OK)|apply (meta_refl g OK)|exact EF2]. }
  assert (CONT : forall k x, idx <= k < idx + el -> x < BS g -> blkc g pm1 s2 (c_ino c) (l + k) x = src (k * BS g + x)).
  { intros k x Hk Hx. replace (l + k) with (l + idx + (k - idx)) by lia. rewrite <- EI1. rewrite BL2 by lia.
    f_equal. rewrite N.mul_sub_distr_r. assert (idx * BS g <= k * BS g) by nia. lia. }
  destruct RE1 as [[-> Hel]|(-> & -> & Hel & HF1)].
  - (* more to do *)
    unfold bind at 1, lift at 1, modify at 1. cbn [fst snd]. fold s2.
    destruct (IHfuel (N.max L (E * BS g)) pm1 s2 c1 (idx + el) next' W2) as
      (re & idx' & pm' & s' & c' & RR & W' & ST' & B' & RE' & NX' & Z' & C'); try lia.
    { intros Hn. destruct (NX1 Hn) as (Q1 & Q2 & Q3 & Q4).
      rewrite <- (com_eq _ _ _ _ _ _ _ _ (c_dat c1) W1 W2) in Q4. rewrite EI1. replace (l + (idx + el)) with (l + idx + el) by lia.
      sp; auto; try lia.
      unfold E. destruct (N.eqb_spec next' 0); [congruence|]. lia. }
    rewrite EI1 in *. clear IHfuel.
    assert (EE : E = l + idx + el + (if next' =? 0 then 0 else 1)) by reflexivity. clearbody E.
    assert (HIE : E <= l + idx').
    { destruct (N.eqb_spec next' 0); [lia|]. specialize (NX' n0). lia. }
    assert (Hii : idx + el <= idx') by lia.
    exists re, idx', pm', s', c'. split; [exact RR|]. split; [|split; [|split; [|split; [|split; [|split]]]]]; try lia.
    + destruct (N.eqb_spec idx' idx); [lia|]. destruct (N.eqb_spec idx' (idx + el)) as [Heq|Heq].
      * assert (E = l + idx') as <-; [|exact W']. lia.
      * replace (N.max L ((l + idx') * BS g)) with (N.max (N.max L (E * BS g)) ((l + idx') * BS g)); [exact W'|].
        assert (E * BS g <= (l + idx') * BS g) by (apply N.mul_le_mono_r; lia). lia.
    + eapply ST_trans.
      { eapply ST_weak; [|exact ST1]. cbv beta. lia. }
      eapply ST_trans.
      { eapply ST_weak; [|exact ST2]. cbv beta. lia. }
      eapply ST_weak; [|exact ST']. cbv beta. lia.
    + destruct RE' as [?|[? [? ?]]]; [left|right]; auto.
    + intros k x Hk Hx. destruct (N.lt_ge_cases k (idx + el)) as [Hk'|Hk'].
      * destruct ST' as (_ & _ & EF'). rewrite EI1 in EF'. rewrite (ef_blk _ _ _ _ _ _ EF') by (try lia; right; lia). apply CONT; lia.
      * apply C'; lia.
  - (* out of space after el blocks *)
    replace (0 <? el) with true by (symmetry; apply N.ltb_lt; lia). cbn iota.
    unfold bind at 1, lift at 1, modify at 1. cbn [fst snd]. fold s2. unfold ret.
    change (0 =? 0) with true in *. cbn iota in *.
    assert (EE : E = l + (idx + el)) by (unfold E; lia). clearbody E. subst E.
    exists (Some ENOSPC), (idx + el), pm1, s2, c1. split; [reflexivity|].
    split; [|split; [|split; [|split; [|split; [|split]]]]]; try lia.
    + destruct (N.eqb_spec (idx + el) idx); [lia|]. exact W2.
    + eapply ST_trans.
      { eapply ST_weak; [|exact ST1]. cbv beta. lia. }
      eapply ST_weak; [|exact ST2]. cbv beta. lia.
    + right. split; auto. split; [lia|]. unfold s2. now rewrite io_write_free.
    + intros k x Hk Hx. apply CONT; auto.
Qed.


Lemma WriteAligned_spec L pm s c l count src :
  WS L pm s c -> l + count <= INODE_DATA_BLOCKS g -> 0 < count ->
  (R0 = true -> count <= 1 /\ pm (c_ino c) (pT g l) <> 0) ->
  NoSpace L pm s c (WriteAligned g l count src (s, c)) \/
  exists w pm' s' c', WriteAligned g l count src (s, c) = (Ok w, (s', c')) /\ 0 < w <= count /\
    WS (N.max L ((l + w) * BS g)) pm' s' c' /\ ST (fun m => l <= m < l + w) pm s c pm' s' c' /\
    (w < count -> FreeBlockCount g s' < MAXCOST) /\
    (forall k x, k < w -> x < BS g -> blkc g pm' s' (c_ino c) (l + k) x = src (k * BS g + x)).
Proof.
  intros W H1 H2 H3.
  destruct (write_aligned_spec l count src (N.to_nat count) L pm s c 0 0 W) as
    (re & idx & pm' & s' & c' & RR & W' & ST' & B & RE & _ & Z & CC); try lia; try congruence.
  { intros E. destruct (H3 E). rewrite N.add_0_r. split; auto. }
  rewrite N.add_0_r in *.
  assert (RUN : WriteAligned g l count src (s, c) =
    match re with None => ret idx | Some ENOSPC => if 0 <? idx then ret idx else fail ENOSPC | Some e => fail e end (s', c')).
  { unfold WriteAligned, bind at 1. rewrite RR. reflexivity. }
  rewrite RUN. clear RR RUN.
  destruct (N.eqb_spec idx 0) as [->|Hi].
  - destruct RE as [[_ ?]|[-> [_ HF]]]; [lia|]. cbn. left. destruct (Z eq_refl) as (-> & -> & SM & F); [congruence|].
    exists c'. auto.
  - right. exists idx, pm', s', c'.
    split.
    { destruct RE as [[-> _]|[-> _]]; auto. replace (0 <? idx) with true by (symmetry; apply N.ltb_lt; lia). reflexivity. }
    sp; auto; try lia.
    + intros k x Hk. apply CC. lia.
Qed.

(** A whole block. *)
Lemma WA1_spec L pm s c l src :
  WS L pm s c -> l < INODE_DATA_BLOCKS g -> (R0 = true -> pm (c_ino c) (pT g l) <> 0) ->
  NoSpaceN l L pm s c (WriteAligned g l 1 src (s, c)) \/
  exists pm' s' c', WriteAligned g l 1 src (s, c) = (Ok 1, (s', c')) /\
    WS (N.max L ((l + 1) * BS g)) pm' s' c' /\ (ST (fun m => m = l) pm s c pm' s' c' /\ NewP pm' s' (c_ino c) l) /\
    (forall x, blkc g pm' s' (c_ino c) l x = src x).
Proof.
  intros W Hl HR. pose proof (BSp g OK) as BP.
  destruct (seekS L pm s c l W Hl) as (c1 & R & SM & S & W1). pose proof (ino_same g OK _ _ SM) as EI.
  assert (HM : N.max L ((l + 1) * BS g) <= INODE_SIZE_MAX g).
  { pose proof (L_max _ _ _ _ W). unfold INODE_SIZE_MAX in *. assert ((l + 1) * BS g <= BS g * INODE_DATA_BLOCKS g) by nia. lia. }
  assert (W1' : WS (N.max L ((l + 1) * BS g)) pm s c1) by (eapply WS_L; [| |exact W1]; lia).
  assert (LL : l * BS g < N.max L ((l + 1) * BS g)) by (rewrite N.mul_add_distr_r; lia).
  assert (RS : forall y, BranchBlock g BD_DATA false (s, c1) = y ->
     extent_branch g 1 l 0 0 0 0 (s, c) = (r <- attempt (fun _ : st * cin => y) ;;
        match r with Err e => ret (Some e, 0, 0, 0) | Ok _ => c <- getc ;; ret (None, 0, c_dat c, 1) end) (s, c1)).
  { intros y <-. cbn [extent_branch]. change (0 =? 0) with true. cbn iota. unfold bind, attempt. rewrite N.add_0_r, R.
    destruct (pm (c_ino c) (pT g l) =? 0); destruct (BranchBlock g BD_DATA false (s, c1)) as [[?|?] [? ?]]; reflexivity. }
  assert (RUN : forall (re : option errno) s' c' es, extent_branch g 1 l 0 0 0 0 (s, c) = (Ok (re, 0, es, match re with Some _ => 0 | None => 1 end), (s', c')) ->
     (re = None -> io_range g es 1 = true) -> (re = None \/ re = Some ENOSPC) ->
     WriteAligned g l 1 src (s, c) = match re with None => (Ok 1, (dk_write es (BData src) s', c')) | Some e => (Err e, (s', c')) end).
  { intros re s' c' es E IO RE.  unfold WriteAligned. unfold bind at 1. change (N.to_nat 1) with 1%nat. cbn [write_aligned_loop].
    change (0 <? 1) with true. cbn iota. change (N.to_nat (1 - 0)) with 1%nat. unfold bind at 1. rewrite E.
    destruct re as [e|].
    - destruct RE as [|RE]; [discriminate|]. injection RE as ->. reflexivity.
    - rewrite (IO eq_refl). reflexivity. }
  destruct (branch_data _ pm s c1 l false W1' S LL) as [[(F & NN) RB]|(pm' & s' & c' & RB & W' & S' & (ST' & NP) & Nz & Cm & Oth & _)].
  { now rewrite EI. }
  - left. exists c1. rewrite EI in NN. sp; auto. rewrite (RUN (Some ENOSPC) s c1 0); auto; [|discriminate].
    rewrite (RS _ RB). reflexivity.
  - right. rewrite EI in *. pose proof (ST_ino _ _ _ _ _ _ _ ST') as EI'. rewrite EI in EI'.
    assert (CmE : forall b, com s' b = com s b) by (intros; eapply com_eq; eauto).
    assert (E : c_dat c' = pm' (c_ino c) (pT g l)) by (rewrite (s_dat _ _ _ _ S'); now rewrite EI').
    destruct (data_store _ pm' s' c' l (BData src) W' Hl) as (W2 & EF2 & B2); try (rewrite EI'; auto). { rewrite CmE. exact Cm. }
    rewrite EI' in W2, EF2, B2.
    exists pm', (dk_write (pm' (c_ino c) (pT g l)) (BData src) s'), c'. split; [|split; [exact W2|split; [split|]]].
    + rewrite (RUN None s' c' (c_dat c')); auto.
      * rewrite E. reflexivity.
      * rewrite (RS _ RB). reflexivity.
      * intros _. rewrite E. destruct W' as ((K' & _) & _). rewrite <- EI' in Nz |- *. destruct (Core_blk OK K' Nz) as (RG & _).
        unfold io_range. destruct (N.ltb_spec (pm' (c_ino c') (pT g l)) (BC g)); [|lia]. destruct (N.leb_spec 1 (BC g - pm' (c_ino c') (pT g l))); [reflexivity|lia].
    + eapply ST_trans; [apply ST_csame; eauto|]. eapply ST_trans; eauto. split; [|split]; [apply (cid_refl g OK)|apply (meta_refl g OK)|].
      now rewrite EI'.
    + intros p Hp. destruct (NP p Hp) as [N1 N2]. split; auto. rewrite (com_eq _ _ _ _ _ _ _ _ _ W W2). exact N2.
    + exact B2.
Qed.

(** * The write call *)
Lemma blkc_out i P pm s pm' s' j m x : EF i P pm s pm' s' -> m < INODE_DATA_BLOCKS g -> ~ P m -> blkc g pm' s' j m x = blkc g pm s j m x.
Proof. intros [A B C] Hm Hn. apply B; auto. Qed.

Lemma off_blk off : off < INODE_SIZE_MAX g -> off / BS g < INODE_DATA_BLOCKS g.
Proof. intros H. apply (div_ub g OK). unfold INODE_SIZE_MAX in H. now rewrite N.mul_comm. Qed.

(** bytes below the end of file, zero beyond *)
Definition vb (size : N) (pm : pmap) (s : st) (i off : N) : N := if off <? size then fbyte g pm s i off else 0.

(** [idx] bytes of [src] have been written at [start]. *)
Definition Lw (size start idx : N) : N := if idx =? 0 then size else N.max size (start + idx).
Definition PWr (start : N) (src : N -> N) (pm : pmap) (s : st) (c : cin) (idx : N) (pm' : pmap) (s' : st) (c' : cin) : Prop :=
  WS (Lw (i_size (c_i c)) start idx) pm' s' c' /\ ST anyb pm s c pm' s' c' /\
  forall off, off < INODE_SIZE_MAX g ->
    (start <= off < start + idx -> fbyte g pm' s' (c_ino c) off = src (off - start)) /\
    (off < N.max (i_size (c_i c)) start -> ~ (start <= off < start + idx) ->
       fbyte g pm' s' (c_ino c) off = vb (i_size (c_i c)) pm s (c_ino c) off).

Lemma PWr_csame start src pm s c idx pm' s' c' c2 : PWr start src pm s c idx pm' s' c' -> csame c' c2 -> 
  WS (Lw (i_size (c_i c)) start idx) pm' s' c2 -> PWr start src pm s c idx pm' s' c2.
Proof.
  intros (A & B & C) SM W. split; [exact W|]. split; [|exact C]. eapply ST_trans; [exact B|]. now apply ST_csame.
Qed.

(** One more piece inside one block. *)
Lemma PWr_put start src pm s c idx pm' s' c' n pm2 s2 c2 :
  PWr start src pm s c idx pm' s' c' -> 0 < n ->
  (start + idx) / BS g = (start + idx + n - 1) / BS g ->
  WS (N.max (Lw (i_size (c_i c)) start idx) (start + idx + n)) pm2 s2 c2 -> ST (fun m => m = (start + idx) / BS g) pm' s' c' pm2 s2 c2 ->
  (forall x, x < BS g -> blkc g pm2 s2 (c_ino c) ((start + idx) / BS g) x =
     copyin ((start + idx) mod BS g) n (fun x => src (idx + x)) (blkc g pm' s' (c_ino c) ((start + idx) / BS g)) x) ->
  PWr start src pm s c (idx + n) pm2 s2 c2.
Proof.
  intros PP Hn Hb W2 ST2 B2. pose proof PP as (W & STx & BY). pose proof (ST_ino _ _ _ _ _ _ _ STx) as EI.
    split; [|split].
    + replace (Lw (i_size (c_i c)) start (idx + n)) with (N.max (Lw (i_size (c_i c)) start idx) (start + idx + n)); auto.
      unfold Lw. destruct (N.eqb_spec idx 0), (N.eqb_spec (idx + n) 0); lia.
    + eapply ST_trans; eauto. eapply ST_weak; [|exact ST2]. intros; exact Logic.I.
    + assert (KEY : forall off, off < INODE_SIZE_MAX g -> fbyte g pm2 s2 (c_ino c) off =
        if (start + idx <=? off) && (off <? start + idx + n) then src (off - start) else fbyte g pm' s' (c_ino c) off).
      { intros off Ho. unfold fbyte. destruct (N.eq_dec (off / BS g) ((start + idx) / BS g)) as [E|E].
        - rewrite E, B2 by apply (off_ub g OK). unfold copyin.
          pose proof (off_eq g OK off) as Q1. pose proof (off_eq g OK (start + idx)) as Q2. rewrite E in Q1.
          assert (EQ : ((start + idx) mod BS g <=? off mod BS g) && (off mod BS g <? (start + idx) mod BS g + n) =
                       (start + idx <=? off) && (off <? start + idx + n)).
          { revert Q1 Q2. clear. generalize ((start + idx) / BS g * BS g), ((start + idx) mod BS g), (off mod BS g).
            intros q a b Q1 Q2.
            destruct (N.leb_spec a b), (N.leb_spec (start + idx) off), (N.ltb_spec b (a + n)), (N.ltb_spec off (start + idx + n)); cbn; auto; lia. }
          rewrite EQ. destruct (N.leb_spec (start + idx) off), (N.ltb_spec off (start + idx + n)); cbn [andb]; auto.
          f_equal. revert Q1 Q2 H. clear. generalize ((start + idx) / BS g * BS g), ((start + idx) mod BS g), (off mod BS g). intros; lia.
        - destruct ST2 as (_ & _ & EF2). rewrite (blkc_out _ _ _ _ _ _ _ _ _ EF2) by (auto using off_blk).
          destruct (N.leb_spec (start + idx) off), (N.ltb_spec off (start + idx + n)); cbn [andb]; auto.
          exfalso. apply E. pose proof (div_le g OK (start + idx) off ltac:(lia)).
          pose proof (div_le g OK off (start + idx + n - 1) ltac:(lia)). lia. }
      intros off Ho. rewrite KEY by auto. destruct (BY off Ho) as [BY1 BY2]. split.
      * intros Hr. destruct (N.leb_spec (start + idx) off), (N.ltb_spec off (start + idx + n)); cbn [andb]; auto; apply BY1; lia.
      * intros Hlt Hr. destruct (N.leb_spec (start + idx) off), (N.ltb_spec off (start + idx + n)); cbn [andb]; try lia; apply BY2; lia.
Qed.


Lemma WU_step start src pm s c idx pm' s' c' n :
  PWr start src pm s c idx pm' s' c' -> 0 < n -> (start + idx) / BS g = (start + idx + n - 1) / BS g ->
  start + idx + n <= INODE_SIZE_MAX g ->
  (R0 = true -> pm' (c_ino c) (pT g ((start + idx) / BS g)) <> 0) ->
  (exists c2, WriteUnaligned g (start + idx) n (fun x => src (idx + x)) (s', c') = (Err ENOSPC, (s', c2)) /\
      PWr start src pm s c idx pm' s' c2 /\ (FreeBlockCount g s' < MAXCOST /\ ~ NewP pm' s' (c_ino c) ((start + idx) / BS g))) \/
  exists pm2 s2 c2, WriteUnaligned g (start + idx) n (fun x => src (idx + x)) (s', c') = (Ok tt, (s2, c2)) /\
    PWr start src pm s c (idx + n) pm2 s2 c2 /\ NewP pm2 s2 (c_ino c) ((start + idx) / BS g).
Proof.
  intros PP Hn Hb Hm HR. pose proof PP as (W & STx & BY).
  pose proof (ST_ino _ _ _ _ _ _ _ STx) as EI.
  destruct (WriteUnaligned_spec _ pm' s' c' (start + idx) n (fun x => src (idx + x)) W Hn Hb Hm) as
    [(c2 & R & SM & W2 & F)|(pm2 & s2 & c2 & R & W2 & (ST2 & NP) & B2)].
  { now rewrite EI. }
  - left. exists c2. rewrite EI in *. sp; try apply F; auto. eapply PWr_csame; eauto.
  - right. exists pm2, s2, c2. split; auto. rewrite EI in *. split; auto. eapply PWr_put; eauto.
Qed.

Lemma WA_step start src pm s c idx pm' s' c' cnt :
  PWr start src pm s c idx pm' s' c' -> 0 < cnt -> (start + idx) mod BS g = 0 ->
  start + idx + cnt * BS g <= INODE_SIZE_MAX g ->
  (R0 = true -> cnt <= 1 /\ pm' (c_ino c) (pT g ((start + idx) / BS g)) <> 0) ->
  (exists c2, WriteAligned g ((start + idx) / BS g) cnt (fun x => src (idx + x)) (s', c') = (Err ENOSPC, (s', c2)) /\
      PWr start src pm s c idx pm' s' c2 /\ FreeBlockCount g s' < MAXCOST) \/
  exists w pm2 s2 c2, WriteAligned g ((start + idx) / BS g) cnt (fun x => src (idx + x)) (s', c') = (Ok w, (s2, c2)) /\
    0 < w <= cnt /\ (w < cnt -> FreeBlockCount g s2 < MAXCOST) /\ PWr start src pm s c (idx + w * BS g) pm2 s2 c2.
Proof.
  intros PP Hn Hb Hm HR. pose proof PP as (W & STx & BY). pose proof (BSp g OK) as BP.
  pose proof (ST_ino _ _ _ _ _ _ _ STx) as EI. set (l := (start + idx) / BS g).
  assert (El : start + idx = l * BS g). { pose proof (off_eq g OK (start + idx)). unfold l. lia. }
  assert (Hl : l + cnt <= INODE_DATA_BLOCKS g).
  { unfold INODE_SIZE_MAX in Hm. rewrite El in Hm. apply N.mul_le_mono_pos_r with (BS g); auto. lia. }
  destruct (WriteAligned_spec _ pm' s' c' l cnt (fun x => src (idx + x)) W Hl Hn) as
    [(c2 & R & SM & W2 & F)|(w & pm2 & s2 & c2 & R & Hw & W2 & ST2 & FR & B2)].
  { now rewrite EI. }
  - left. exists c2. sp; auto. eapply PWr_csame; eauto.
  - right. exists w, pm2, s2, c2. split; auto. split; auto. split; auto. rewrite EI in *.
    assert (Wp : 0 < w * BS g) by nia.
    split; [|split].
    + replace (Lw (i_size (c_i c)) start (idx + w * BS g)) with (N.max (Lw (i_size (c_i c)) start idx) ((l + w) * BS g)); auto.
      unfold Lw. rewrite N.mul_add_distr_r, <- El. destruct (N.eqb_spec idx 0), (N.eqb_spec (idx + w * BS g) 0); lia.
    + eapply ST_trans; eauto. eapply ST_weak; [|exact ST2]. intros; exact Logic.I.
    + assert (KEY : forall off, off < INODE_SIZE_MAX g -> fbyte g pm2 s2 (c_ino c) off =
        if (start + idx <=? off) && (off <? start + idx + w * BS g) then src (off - start) else fbyte g pm' s' (c_ino c) off).
      { intros off Ho. unfold fbyte. pose proof (off_eq g OK off) as Q1. pose proof (off_ub g OK off) as U.
        destruct (N.lt_ge_cases (off / BS g) l) as [E|E]; [|destruct (N.lt_ge_cases (off / BS g) (l + w)) as [E2|E2]].
        - destruct ST2 as (_ & _ & EF2). rewrite (blkc_out _ _ _ _ _ _ _ _ _ EF2); auto using off_blk; [|lia].
          destruct (N.leb_spec (start + idx) off); auto. exfalso. rewrite El in H. 
          assert ((off / BS g + 1) * BS g <= l * BS g) by (apply N.mul_le_mono_r; lia). lia.
        - assert (T1 : start + idx <= off) by (rewrite El, Q1; pose proof (N.mul_le_mono_r l (off / BS g) (BS g) E); lia).
          assert (T2 : off < start + idx + w * BS g).
          { rewrite El, <- N.mul_add_distr_r. pose proof (N.mul_le_mono_r (off / BS g + 1) (l + w) (BS g) ltac:(lia)). lia. }
          replace (off / BS g) with (l + (off / BS g - l)) by lia. rewrite B2 by (try lia; apply (off_ub g OK)).
          destruct (N.leb_spec (start + idx) off), (N.ltb_spec off (start + idx + w * BS g)); cbn [andb]; try lia.
          f_equal. rewrite N.mul_sub_distr_r. pose proof (N.mul_le_mono_r l (off / BS g) (BS g) E). lia.
        - destruct ST2 as (_ & _ & EF2). rewrite (blkc_out _ _ _ _ _ _ _ _ _ EF2); auto using off_blk; [|lia].
          destruct (N.leb_spec (start + idx) off), (N.ltb_spec off (start + idx + w * BS g)); cbn [andb]; auto. exfalso.
          rewrite El, <- N.mul_add_distr_r in H0. pose proof (N.mul_le_mono_r (l + w) (off / BS g) (BS g) E2). lia. }
      intros off Ho. rewrite KEY by auto. destruct (BY off Ho) as [BY1 BY2]. split.
      * intros Hr. destruct (N.leb_spec (start + idx) off), (N.ltb_spec off (start + idx + w * BS g)); cbn [andb]; auto; apply BY1; lia.
      * intros Hlt Hr. destruct (N.leb_spec (start + idx) off), (N.ltb_spec off (start + idx + w * BS g)); cbn [andb]; try lia; apply BY2; lia.
Qed.

(** The first step: a write beyond end of file. *)
Lemma beyond_byte pm s c off : WS (i_size (c_i c)) pm s c -> off < INODE_SIZE_MAX g -> i_size (c_i c) <= off / BS g * BS g ->
  fbyte g pm s (c_ino c) off = 0.
Proof. intros (W & _) Ho Hs. unfold fbyte, blkc. rewrite (beyond _ _ _ _ _ W); auto using off_blk. Qed.

Lemma PWr_0 pm s c start src : WS (i_size (c_i c)) pm s c ->
  let r := (if i_size (c_i c) <? start then ExpandPrepare g else ret tt) (s, c) in
  (exists c', r = (Err ENOSPC, (s, c')) /\ csame c c' /\ WS (i_size (c_i c)) pm s c' /\ FreeBlockCount g s < MAXCOST) \/
  exists pm' s' c', r = (Ok tt, (s', c')) /\ PWr start src pm s c 0 pm' s' c' /\ (start <= i_size (c_i c) -> pm' = pm /\ s' = s /\ c' = c).
Proof.
  intros W. cbv zeta. destruct (N.ltb_spec (i_size (c_i c)) start) as [H|H].
  - destruct (ExpandPrepare_spec _ _ _ _ W) as [X|(pm' & s' & c' & R & W' & ST' & B')]; [left; exact X|].
    right. exists pm', s', c'. split; auto. split; [|lia]. split; [exact W'|]. split.
    { eapply ST_weak; [|exact ST']. intros; exact Logic.I. }
    intros off Ho. split; [lia|]. intros _ _. unfold vb.
    pose proof (off_eq g OK off) as Q1. pose proof (off_ub g OK off) as U.
    pose proof (off_eq g OK (i_size (c_i c))) as Q2. pose proof (off_ub g OK (i_size (c_i c))) as U2.
    destruct ST' as (_ & _ & EF'). set (size := i_size (c_i c)) in *.
    destruct (N.eq_dec (off / BS g) (size / BS g)) as [E|E].
    + destruct (N.eq_dec (size mod BS g) 0) as [Z|Z].
      * destruct (N.ltb_spec off size) as [Hl|Hl]; [rewrite E in Q1; exfalso; lia|].
        unfold fbyte. rewrite (blkc_out _ _ _ _ _ _ _ _ _ EF') by (auto using off_blk; tauto).
        apply beyond_byte; auto. fold size. rewrite E. lia.
      * unfold fbyte. rewrite E, B' by (auto using (off_ub g OK)). rewrite E in Q1.
        assert (EQ : (size mod BS g <=? off mod BS g) = negb (off <? size)).
        { revert Q1 Q2. clear. generalize (size / BS g * BS g), (size mod BS g), (off mod BS g). intros q a b Q1 Q2.
          destruct (N.leb_spec a b), (N.ltb_spec off size); cbn; auto; lia. }
        rewrite EQ. now destruct (off <? size).
    + unfold fbyte. rewrite (blkc_out _ _ _ _ _ _ _ _ _ EF') by (auto using off_blk; tauto).
      destruct (N.ltb_spec off size) as [Hl|Hl]; auto. apply beyond_byte; auto. fold size.
      pose proof (div_le g OK size off Hl). pose proof (N.mul_le_mono_r (size / BS g + 1) (off / BS g) (BS g) ltac:(lia)). lia.
  - right. exists pm, s, c. split; auto. split; auto. split; [exact W|]. split; [apply ST_refl|].
    intros off Ho. split; [lia|]. intros Hlt _. unfold vb. destruct (N.ltb_spec off (i_size (c_i c))); auto. lia.
Qed.
End Write.
