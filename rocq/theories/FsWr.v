(** What every function of the model does to the block contents: blocks are changed only by
    writes that the ghost set [s_wr] records, the set only grows, the committed metaroot is
    untouched, and a volume that went read-only stays so.

    The set grows monotonically, so the set at the end of an operation bounds what can have
    reached the media at any instant during the operation. *)
From Verif Require Import Base FsState FsImap FsInode FsData FsDir FsCore.

Definition wle (s s' : st) : Prop :=
  (forall b, s_wr s b = true -> s_wr s' b = true) /\
  (forall b, s_wr s' b = false -> dk s' b = dk s b) /\
  s_c s' = s_c s /\ (s_ro s = true -> s_ro s' = true) /\ (s_br s = true -> s_br s' = true).
Lemma wle_refl s : wle s s. Proof. repeat split; auto. Qed.
Lemma wle_trans a b c : wle a b -> wle b c -> wle a c.
Proof.
  intros (A1 & A2 & A3 & A4 & A5) (B1 & B2 & B3 & B4 & B5). repeat split; auto; [|congruence].
  intros x Hx. rewrite B2 by auto. apply A2. destruct (s_wr b x) eqn:E; auto. rewrite B1 in Hx; auto.
Qed.

Section Wok.
Context {S : Type}.
Variable p : S -> st.
Definition wok {A} (m : M S A) : Prop := forall x, wle (p x) (p (snd (m x))).
Lemma wokE {A} (m : M S A) x : wok m -> wle (p x) (p (snd (m x))). Proof. auto. Qed.
Lemma wok_ret {A} (a : A) : wok (ret a). Proof. intros x. apply wle_refl. Qed.
Lemma wok_fail {A} e : @wok A (fail e). Proof. intros x. apply wle_refl. Qed.
Lemma wok_gets {A} (f : S -> A) : wok (gets f). Proof. intros x. apply wle_refl. Qed.
Lemma wok_lift_res {A} (r : res A) : wok (lift_res r). Proof. intros x. apply wle_refl. Qed.
Lemma wok_bind {A B} (m : M S A) (k : A -> M S B) : wok m -> (forall a, wok (k a)) -> wok (bind m k).
Proof.
  intros H K x. unfold bind. pose proof (H x) as Hx. destruct (m x) as [[a|e] x']; cbn [snd] in *; auto.
  eapply wle_trans; [exact Hx|apply K].
Qed.
Lemma wok_attempt {A} (m : M S A) : wok m -> wok (attempt m).
Proof. intros H x. unfold attempt. pose proof (H x). destruct (m x). auto. Qed.
Lemma wok_loop n i body : (forall k, wok (body k)) -> wok (loop n i body).
Proof. intros H. revert i. induction n; intros i; cbn [loop]; [apply wok_ret|]. apply wok_bind; auto. Qed.
Lemma wok_modify f : (forall x, wle (p x) (p (f x))) -> wok (modify f). Proof. intros H x. apply H. Qed.
End Wok.
Notation ws := (wok (fun s : st => s)).
Notation wc := (wok (fst : st * _ -> st)).

Lemma wle_write b v s : wle s (dk_write b v s).
Proof.
  repeat split; auto; unfold dk_write; cbn; intros x; unfold upd.
  - destruct (x =? b); auto.
  - destruct (x =? b); auto. discriminate.
Qed.
Lemma wle_dirty b s : wle s (dk_dirty b s).
Proof. repeat split; auto; unfold dk_dirty; cbn; intros x; unfold upd. destruct (x =? b); auto. Qed.
Lemma wle_w m s : wle s (set_w m s). Proof. repeat split; auto. Qed.
Lemma wle_afree m s : wle s (set_afree m s). Proof. repeat split; auto. Qed.
Lemma wle_res m s : wle s (set_res m s). Proof. repeat split; auto. Qed.
Lemma wle_ro s : wle s (set_ro true s). Proof. repeat split; auto. Qed.
Lemma wle_br s : wle s (set_br true s). Proof. repeat split; auto. Qed.
Lemma wle_discard b s : wle s (discard_block b s).
Proof. unfold discard_block. destruct (com s b); [apply wle_refl|apply wle_write]. Qed.
Lemma ws_critical {A} e : ws (@critical A e). Proof. intros s. apply wle_ro. Qed.
Lemma ws_cassert {A} (m : M st A) : ws m -> ws (critical_assert m).
Proof.
  intros H s. unfold critical_assert. pose proof (H s) as X. destruct (m s) as [[a|e] s']; auto.
  eapply wle_trans; [exact X|apply wle_ro].
Qed.
Lemma wc_lift {A} (m : M st A) : ws m -> wc (lift m).
Proof. intros H [s c]. unfold lift. cbn [fst snd]. pose proof (H s) as X. destruct (m s). exact X. Qed.
Lemma wc_getc : wc getc. Proof. intros x. apply wle_refl. Qed.
Lemma wc_modc f : wc (modc f). Proof. intros [s c]. apply wle_refl. Qed.
Lemma wc_iset f : wc (iset f).
Proof. intros [s c]. unfold iset. cbn [fst snd]. destruct (c_dirty _); [apply wle_write|apply wle_refl]. Qed.
Lemma wc_cassert {A} (m : MC A) : wc m -> wc (critical_assert_c m).
Proof.
  intros H x. unfold critical_assert_c. pose proof (H x) as X. destruct (m x) as [[a|e] [s' c']]; auto.
  eapply wle_trans; [exact X|apply wle_ro].
Qed.
Lemma ws_runc {A} (m : MC A) c : wc m -> ws (runc m c).
Proof. intros H s. unfold runc. pose proof (H (s, c)) as X. destruct (m (s, c)) as [r [s' c']]. exact X. Qed.
Lemma ws_finish {A} (m : MC A) c : wc m -> ws (finish m c).
Proof. intros H s. unfold finish. pose proof (H (s, c)) as X. destruct (m (s, c)) as [r [s' c']]. exact X. Qed.
Lemma wp_liftp {A} (m : M st A) : ws m -> wc (liftp m).
Proof. intros H [s c]. unfold liftp. cbn [fst snd]. pose proof (H s) as X. destruct (m s). exact X. Qed.
Lemma wp_onsrc {A} (m : MC A) : wc m -> wc (onsrc m).
Proof. intros H [s [cs od]]. unfold onsrc. cbn [fst snd]. pose proof (H (s, cs)) as X. destruct (m (s, cs)) as [r [s' c']]. exact X. Qed.
Lemma wp_ondst {A} (m : MC A) : wc m -> wc (ondst m).
Proof.
  intros H [s [cs [cd|]]]; unfold ondst; cbn [fst snd].
  - pose proof (H (s, cd)) as X. destruct (m (s, cd)) as [r [s' c']]. exact X.
  - pose proof (H (s, cs)) as X. destruct (m (s, cs)) as [r [s' c']]. exact X.
Qed.

Create HintDb wok.
Ltac wstep :=
  match goal with
  | |- wok _ (ret _) => apply wok_ret
  | |- wok _ (fail _) => apply wok_fail
  | |- wok _ (gets _) => apply wok_gets
  | |- wok _ (lift_res _) => apply wok_lift_res
  | |- wok _ getc => apply wc_getc
  | |- wok _ (modc _) => apply wc_modc
  | |- wok _ (iset _) => apply wc_iset
  | |- wok _ (critical _) => apply ws_critical
  | |- wok _ (bind _ _) => apply wok_bind; [|intros]
  | |- wok _ (attempt _) => apply wok_attempt
  | |- wok _ (critical_assert _) => apply ws_cassert
  | |- wok _ (critical_assert_c _) => apply wc_cassert
  | |- wok _ (lift _) => apply wc_lift
  | |- wok _ (liftp _) => apply wp_liftp
  | |- wok _ (onsrc _) => apply wp_onsrc
  | |- wok _ (ondst _) => apply wp_ondst
  | |- wok _ (runc _ _) => apply ws_runc
  | |- wok _ (finish _ _) => apply ws_finish
  | |- wok _ (loop _ _ _) => apply wok_loop; intros
  | |- wok _ (modify (dk_write _ _)) => intros ?; apply wle_write
  | |- wok _ (modify (dk_dirty _)) => intros ?; apply wle_dirty
  | |- wok _ (modify (discard_block _)) => intros ?; apply wle_discard
  | |- wok _ (modify (fun s => set_w _ s)) => intros ?; apply wle_w
  | |- wok _ (match ?x with _ => _ end) => destruct x
  | |- wok _ _ => solve [auto with wok]
  end.
Ltac wall := repeat wstep.
Ltac wfun := intros s0; cbn beta; repeat match goal with
  | |- wle ?s (snd (_, ?s)) => apply wle_refl
  | |- wle ?s (fst (snd (_, ?s))) => apply wle_refl
  | |- wle _ (snd (if ?b then _ else _)) => destruct b
  | |- wle _ (fst (snd (if ?b then _ else _))) => destruct b
  | |- wle ?s (snd (critical ?e ?s)) => apply wle_ro
  end.

Section All.
Variable g : cfg.
Lemma w_BlockGet w b : ws (RedImapBlockGet g w b). Proof. unfold RedImapBlockGet. wfun. Qed.
Hint Resolve w_BlockGet : wok.
Lemma w_BlockSet b al : ws (RedImapBlockSet g b al).
Proof.
  unfold RedImapBlockSet. intros s. cbn beta. destruct (_ || _); [apply wle_refl|]. destruct (_ && _); [apply wle_ro|].
  unfold RedImapIBlockSet. destruct (Bool.eqb _ _); cbn [snd].
  - eapply wle_trans; [apply wle_ro|apply wle_br].
  - set (s2 := set_br true _). assert (X : wle s s2) by (eapply wle_trans; [apply wle_w|apply wle_br]).
    set (s3 := if al then s2 else discard_block b s2).
    assert (Y : wle s s3). { unfold s3. destruct al; auto. eapply wle_trans; [exact X|apply wle_discard]. }
    clearbody s3. destruct (FA g <=? b); [|exact Y]. destruct al; [|destruct (com s3 b)]; cbn [snd];
      (eapply wle_trans; [exact Y|]); first [apply wle_w|apply wle_afree].
Qed.
Hint Resolve w_BlockSet : wok.
Lemma w_Alloc : ws (RedImapAllocBlock g).
Proof.
  unfold RedImapAllocBlock. intros s. cbn beta. destruct (_ =? 0); [apply wle_refl|]. destruct (_ || _); [apply wle_refl|].
  destruct (find_free _ _ _ _) as [b|]; [|apply wle_ro].
  set (s1 := set_w _ s). assert (X : wle s (snd (critical_assert (RedImapBlockSet g b true) s1))).
  { eapply wle_trans; [apply wle_w|]. apply (ws_cassert _ (w_BlockSet b true)). }
  destruct (critical_assert (RedImapBlockSet g b true) s1) as [[|] s2]; exact X.
Qed.
Lemma w_State b : ws (RedImapBlockState g b). Proof. unfold RedImapBlockState. wfun. Qed.
Hint Resolve w_Alloc w_State : wok.
Lemma w_BitGet w i k : ws (RedInodeBitGet g w i k). Proof. unfold RedInodeBitGet. wall. Qed.
Lemma w_BitSet i k al : ws (InodeBitSet g i k al). Proof. unfold InodeBitSet. wall. Qed.
Hint Resolve w_BitGet w_BitSet : wok.
Lemma w_Cur i : ws (InodeGetCurrentCopy g i). Proof. unfold InodeGetCurrentCopy. wall. Qed.
Lemma w_Wr i : ws (InodeGetWriteableCopy g i). Proof. unfold InodeGetWriteableCopy. wall. Qed.
Lemma w_IsBr i : ws (InodeIsBranched g i). Proof. unfold InodeIsBranched. wall. Qed.
Lemma w_IsFree i : ws (RedInodeIsFree g i). Proof. unfold RedInodeIsFree. wall. Qed.
Hint Resolve w_Cur w_Wr w_IsBr w_IsFree : wok.
Lemma w_ffi n i : ws (find_free_inode g n i).
Proof. revert i. induction n; intros i; cbn [find_free_inode]; wall. Qed.
Hint Resolve w_ffi : wok.
Lemma w_FindFree : ws (InodeFindFree g).
Proof. unfold InodeFindFree. wfun. apply w_ffi. Qed.
Lemma w_get_inode b : ws (get_inode b).
Proof. intros s. unfold get_inode. destruct (dk s b); first [apply wle_refl|apply wle_ro]. Qed.
Hint Resolve w_FindFree w_get_inode : wok.
Lemma w_Branch : wc (RedInodeBranch g).
Proof.
  unfold RedInodeBranch. intros [s c]. cbn [fst snd]. destruct (negb (CINODE_IS_MOUNTED g c)); [apply wle_refl|].
  destruct (negb (c_br c)); [|apply wle_write].
  match goal with |- wle s (fst (snd (?m ?x))) => change (wle (fst x) (fst (snd (m x)))); apply (wokE (@fst st cin)) end.
  wall. intros [s1 c1]. apply wle_write.
Qed.
Hint Resolve w_Branch : wok.
Lemma w_Mount i ty br : ws (RedInodeMount g i ty br).
Proof.
  unfold RedInodeMount. wfun. match goal with |- wle ?s (snd (?m ?s)) => apply (wokE (fun s : st => s) m) end.
  wall; intros s; match goal with |- context [RedInodeBranch g (s, ?c)] => pose proof (w_Branch (s, c)) as X; destruct (RedInodeBranch g (s, c)) as [[|] [? ?]]; exact X end.
Qed.
Lemma w_Create i p d : ws (RedInodeCreate g i p d).
Proof. unfold RedInodeCreate. wfun. match goal with |- wle ?s (snd (?m ?s)) => apply (wokE (fun s : st => s) m) end. wall. Qed.
Lemma w_Free : wc (RedInodeFree g).
Proof.
  unfold RedInodeFree. intros [s c]. cbn [fst snd]. destruct (negb (CINODE_IS_MOUNTED g c)); [apply wle_refl|].
  match goal with |- context [let (_, _) := ?m s in _] => assert (X : ws m) by wall; specialize (X s); destruct (m s); exact X end.
Qed.
Hint Resolve w_Mount w_Create w_Free : wok.
Lemma w_gi b : ws (get_indir b). Proof. intros s. unfold get_indir. destruct (dk s b); first [apply wle_refl|apply wle_ro]. Qed.
Lemma w_gd b : ws (get_dindir b). Proof. intros s. unfold get_dindir. destruct (dk s b); first [apply wle_refl|apply wle_ro]. Qed.
Lemma w_gk k b : ws (get_kind g k b). Proof. intros s. unfold get_kind. destruct k, (dk s b); first [apply wle_refl|apply wle_ro]. Qed.
Hint Resolve w_gi w_gd w_gk : wok.
Lemma w_Seek l : wc (SeekInode g l). Proof. unfold SeekInode. wall. Qed.
Hint Resolve w_Seek : wok.
Lemma w_SeekRead l : wc (RedInodeDataSeekAndRead g l). Proof. unfold RedInodeDataSeekAndRead. wall. Qed.
Lemma w_isnew b : ws (is_new g b). Proof. unfold is_new. wall. Qed.
Hint Resolve w_SeekRead w_isnew : wok.
Lemma w_Cost d : wc (BranchBlockCost g d). Proof. unfold BranchBlockCost. wall. Qed.
Lemma w_One b bf k : ws (BranchOneBlock g b bf k). Proof. unfold BranchOneBlock. wall. Qed.
Lemma w_nset b k v : ws (node_set b k v). Proof. intros s. unfold node_set. destruct (dk s b); first [apply wle_write|apply wle_ro]. Qed.
Lemma w_nown b k : ws (node_owner b k). Proof. intros s. unfold node_owner. destruct (dk s b); first [apply wle_write|apply wle_ro]. Qed.
Hint Resolve w_Cost w_One w_nset w_nown : wok.
Lemma w_BranchBlock d f : wc (BranchBlock g d f). Proof. unfold BranchBlock. wall. Qed.
Lemma w_dset b f : ws (data_set g b f). Proof. intros s. apply wle_write. Qed.
Hint Resolve w_BranchBlock w_dset : wok.
Lemma w_Expand : wc (ExpandPrepare g). Proof. unfold ExpandPrepare. wall. Qed.
Lemma w_TDB b cl pr : wc cl -> wc (TruncDataBlock g b cl pr). Proof. intros. unfold TruncDataBlock. wall. Qed.
Hint Resolve w_Expand w_TDB : wok.
Lemma w_TI : wc (TruncIndir g).
Proof. unfold TruncIndir. wall; apply w_TDB; wall. Qed.
Hint Resolve w_TI : wok.
Lemma w_tdl n k fb l : wc (trunc_dindir_loop g n k fb l).
Proof. revert k l. induction n; intros k l; cbn [trunc_dindir_loop]; wall. Qed.
Hint Resolve w_tdl : wok.
Lemma w_TD : wc (TruncDindir g). Proof. unfold TruncDindir. wall. Qed.
Hint Resolve w_TD : wok.
Lemma w_shd l : wc (shrink_direct g l). Proof. unfold shrink_direct. wall. apply w_TDB. wall. Qed.
Lemma w_shi f l : wc (shrink_indir g f l).
Proof. revert l. induction f; intros l; cbn [shrink_indir]; wall. Qed.
Lemma w_shdi f l : wc (shrink_dindir g f l).
Proof. revert l. induction f; intros l; cbn [shrink_dindir]; wall. Qed.
Hint Resolve w_shd w_shi w_shdi : wok.
Lemma w_Shrink z : wc (Shrink g z). Proof. unfold Shrink. wall. Qed.
Hint Resolve w_Shrink : wok.
Lemma w_Trunc z : wc (RedInodeDataTruncate g z). Proof. unfold RedInodeDataTruncate. wall. Qed.
Lemma w_RU a b : wc (ReadUnaligned g a b). Proof. unfold ReadUnaligned. wall. Qed.
Hint Resolve w_Trunc w_RU : wok.
Lemma w_el n l f r : wc (extent_loop g n l f r). Proof. revert r. induction n; intros r; cbn [extent_loop]; wall. Qed.
Hint Resolve w_el : wok.
Lemma w_GE l m : wc (GetExtent g l m). Proof. unfold GetExtent. wall. Qed.
Hint Resolve w_GE : wok.
Lemma w_ral f l c i o : wc (read_aligned_loop g f l c i o).
Proof. revert i o. induction f; intros i o; cbn [read_aligned_loop]; wall. Qed.
Hint Resolve w_ral : wok.
Lemma w_RA l c : wc (ReadAligned g l c). Proof. unfold ReadAligned. wall. Qed.
Hint Resolve w_RA : wok.
Lemma w_Read a b : wc (RedInodeDataRead g a b). Proof. unfold RedInodeDataRead. wall. Qed.
Lemma w_WU a b s : wc (WriteUnaligned g a b s). Proof. unfold WriteUnaligned. wall. Qed.
Hint Resolve w_Read w_WU : wok.
Lemma w_eb n l i x es el : wc (extent_branch g n l i x es el).
Proof. revert i x es el. induction n; intros i x es el; cbn [extent_branch]; wall. Qed.
Hint Resolve w_eb : wok.
Lemma w_io n b src s : wle s (io_write g n b src s).
Proof. revert b src s. induction n; intros; cbn [io_write]; [apply wle_refl|]. eapply wle_trans; [apply wle_write|apply IHn]. Qed.
Lemma w_wal f l c i nx src : wc (write_aligned_loop g f l c i nx src).
Proof. revert i nx. induction f; intros i nx; cbn [write_aligned_loop]; wall; intros s; apply w_io. Qed.
Hint Resolve w_wal : wok.
Lemma w_WA l c src : wc (WriteAligned g l c src). Proof. unfold WriteAligned. wall. Qed.
Hint Resolve w_WA : wok.
Lemma w_Write a b src : wc (RedInodeDataWrite g a b src). Proof. unfold RedInodeDataWrite. wall. Qed.
Lemma w_Del : wc (InodeDelete g). Proof. unfold InodeDelete. wall. Qed.
Hint Resolve w_Write w_Del : wok.
Lemma w_LD : wc (RedInodeLinkDec g). Proof. unfold RedInodeLinkDec. wall. Qed.
Hint Resolve w_LD : wok.
Lemma w_DEW i o nm : wc (DirEntryWrite g i o nm). Proof. unfold DirEntryWrite. wall. Qed.
Lemma w_ll f i c nm fr : wc (lookup_loop g f i c nm fr).
Proof. revert i fr. induction f; intros i fr; cbn [lookup_loop]; wall. Qed.
Hint Resolve w_DEW w_ll : wok.
Lemma w_Lookup nm : wc (RedDirEntryLookup g nm). Proof. unfold RedDirEntryLookup. wall. Qed.
Hint Resolve w_Lookup : wok.
Lemma w_DEC nm i : wc (RedDirEntryCreate g nm i). Proof. unfold RedDirEntryCreate. wall. Qed.
Lemma w_bl f t : wc (back_loop g f t). Proof. revert t. induction f; intros t; cbn [back_loop]; wall. Qed.
Hint Resolve w_DEC w_bl : wok.
Lemma w_DED i : wc (RedDirEntryDelete g i). Proof. unfold RedDirEntryDelete. wall. Qed.
Lemma w_rl f i c : wc (read_loop g f i c). Proof. revert i. induction f; intros i; cbn [read_loop]; wall. Qed.
Hint Resolve w_DED w_rl : wok.
Lemma w_DER i : wc (RedDirEntryRead g i). Proof. unfold RedDirEntryRead. wall. Qed.
Lemma w_cyl f a b c : ws (cyclic_loop g f a b c). Proof. revert b c. induction f; intros b c; cbn [cyclic_loop]; wall. Qed.
Hint Resolve w_DER w_cyl : wok.
Lemma w_Cyc a c : ws (DirCyclicRenameCheck g a c). Proof. unfold DirCyclicRenameCheck. wall. Qed.
Hint Resolve w_Cyc : wok.
Lemma w_Ren a b : wc (RedDirEntryRename g a b).
Proof.
  unfold RedDirEntryRename. wall.
  all: intros s; match goal with |- context [iset ?f (s, ?c)] => pose proof (wc_iset f (s, c)) as X; destruct (iset f (s, c)) as [? [? ?]]; exact X end.
Qed.
Hint Resolve w_Ren : wok.
Lemma w_use v : ws (use_reserved g v).
Proof. intros s. unfold use_reserved, modify. cbn [snd]. destruct (0 <? RESV g); [apply wle_res|apply wle_refl]. Qed.
Hint Resolve w_use : wok.
Ltac wcore := intros s; cbn beta; destruct (s_ro s); [apply wle_refl|];
  match goal with |- wle ?s (snd (?m ?s)) => apply (wokE (fun s : st => s) m) end; wall.
Lemma w_CoreCreate p nm d : ws (CoreCreate g p nm d). Proof. unfold CoreCreate. wcore. Qed.
Lemma w_CoreLink p nm i : ws (CoreLink g p nm i). Proof. unfold CoreLink. wcore. Qed.
Lemma w_CoreUnlink p nm : ws (CoreUnlink g p nm). Proof. unfold CoreUnlink. wcore. Qed.
Lemma w_CoreRename a b c d : ws (CoreRename g a b c d).
Proof.
  unfold CoreRename. wcore. intros s'. match goal with |- context [RedDirEntryRename g b d (s', ?c)] => pose proof (w_Ren b d (s', c)) as X; destruct (RedDirEntryRename g b d (s', c)) as [? [? ?]]; exact X end.
Qed.
Lemma w_CoreFileWrite i a l src : ws (CoreFileWrite g i a l src). Proof. unfold CoreFileWrite. wcore. Qed.
Lemma w_CoreFileTruncate i z : ws (CoreFileTruncate g i z). Proof. unfold CoreFileTruncate. wcore. Qed.
Lemma w_CoreLookup p nm : ws (CoreLookup g p nm). Proof. unfold CoreLookup. wall. Qed.
Lemma w_CoreStat i : ws (CoreStat g i). Proof. unfold CoreStat. wall. Qed.
Lemma w_CoreFileRead i a l : ws (CoreFileRead g i a l). Proof. unfold CoreFileRead. wall. Qed.
Lemma w_CoreDirRead i k : ws (CoreDirRead g i k). Proof. unfold CoreDirRead. wall. Qed.
Lemma w_CoreDirParent i : ws (CoreDirParent g i). Proof. unfold CoreDirParent. wall. Qed.
End All.
