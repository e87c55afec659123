(** Reading does not depend on whether the volume is read-only. *)
From Verif Require Import Base FsState FsImap FsInode FsData FsDir FsCore.

Definition ro1 (s : st) : st := set_ro true s.
Definition ro2 {X} (x : st * X) : st * X := (set_ro true (fst x), snd x).
Section Roi.
Context {S : Type}.
Variable p : S -> S.
Definition roi {A} (m : M S A) : Prop := forall x, m (p x) = (fst (m x), p (snd (m x))).
Lemma roi_ret {A} (a : A) : roi (ret a). Proof. intros x. reflexivity. Qed.
Lemma roi_fail {A} e : @roi A (fail e). Proof. intros x. reflexivity. Qed.
Lemma roi_gets {A} (f : S -> A) : (forall x, f (p x) = f x) -> roi (gets f).
Proof. intros H x. unfold gets. cbn. now rewrite H. Qed.
Lemma roi_bind {A B} (m : M S A) (k : A -> M S B) : roi m -> (forall a, roi (k a)) -> roi (bind m k).
Proof.
  intros H K x. unfold bind. rewrite H. destruct (m x) as [[a|e] x']; cbn [fst snd]; auto. apply K.
Qed.
Lemma roi_attempt {A} (m : M S A) : roi m -> roi (attempt m).
Proof. intros H x. unfold attempt. rewrite H. destruct (m x). auto. Qed.
End Roi.
Notation rs := (roi ro1).
Notation rc := (roi ro2).
Lemma rs_critical {A} e : rs (@critical A e). Proof. intros s. reflexivity. Qed.
Lemma rc_lift {X A} (m : M st A) : rs m -> roi (@ro2 X) (fun sc => let (r, s') := m (fst sc) in (r, (s', snd sc))).
Proof. intros H [s c]. unfold ro2. cbn [fst snd]. specialize (H s). unfold ro1 in H. rewrite H. destruct (m s). reflexivity. Qed.
Lemma rc_getc : rc getc. Proof. intros [s c]. reflexivity. Qed.
Lemma rc_modc f : rc (modc f). Proof. intros [s c]. reflexivity. Qed.
Lemma rs_finish {A} (m : MC A) c : rc m -> rs (finish m c).
Proof. intros H s. unfold finish. specialize (H (s, c)). unfold ro2 in H. cbn [fst snd] in H. unfold ro1. rewrite H. destruct (m (s, c)) as [r [s' c']]. reflexivity. Qed.

Create HintDb roi.
Ltac rstep :=
  match goal with
  | |- roi _ (ret _) => apply roi_ret
  | |- roi _ (fail _) => apply roi_fail
  | |- roi _ (gets _) => apply roi_gets; intros; reflexivity
  | |- roi _ getc => apply rc_getc
  | |- roi _ (modc _) => apply rc_modc
  | |- roi _ (critical _) => apply rs_critical
  | |- roi _ (bind _ _) => apply roi_bind; [|intros]
  | |- roi _ (attempt _) => apply roi_attempt
  | |- roi _ (lift _) => apply rc_lift
  | |- roi _ (finish _ _) => apply rs_finish
  | |- roi _ (match ?x with _ => _ end) => destruct x
  | |- roi _ _ => solve [auto with roi]
  end.
Ltac rall := repeat rstep.

Section All.
Variable g : cfg.
Lemma r_BlockGet w b : rs (RedImapBlockGet g w b). Proof. unfold RedImapBlockGet. intros s. destruct (_ || _); reflexivity. Qed.
Lemma r_State b : rs (RedImapBlockState g b). Proof. unfold RedImapBlockState. intros s. destruct (_ || _); reflexivity. Qed.
Hint Resolve r_BlockGet r_State : roi.
Lemma r_BitGet w i k : rs (RedInodeBitGet g w i k). Proof. unfold RedInodeBitGet. rall. Qed.
Hint Resolve r_BitGet : roi.
Lemma r_Cur i : rs (InodeGetCurrentCopy g i). Proof. unfold InodeGetCurrentCopy. rall. Qed.
Lemma r_IsBr i : rs (InodeIsBranched g i). Proof. unfold InodeIsBranched. rall. Qed.
Lemma r_get_inode b : rs (get_inode b).
Proof. intros s. unfold get_inode. change (dk (ro1 s)) with (dk s). destruct (dk s b); reflexivity. Qed.
Hint Resolve r_Cur r_IsBr r_get_inode : roi.
Lemma r_Mount i ty : rs (RedInodeMount g i ty false).
Proof.
  unfold RedInodeMount. intros s. destruct (negb _); [reflexivity|].
  match goal with |- ?m (ro1 s) = _ => assert (X : rs m) by rall; exact (X s) end.
Qed.
Lemma r_gi b : rs (get_indir b). Proof. intros s. unfold get_indir. change (dk (ro1 s)) with (dk s). destruct (dk s b); reflexivity. Qed.
Lemma r_gd b : rs (get_dindir b). Proof. intros s. unfold get_dindir. change (dk (ro1 s)) with (dk s). destruct (dk s b); reflexivity. Qed.
Hint Resolve r_Mount r_gi r_gd : roi.
Lemma r_Seek l : rc (SeekInode g l). Proof. unfold SeekInode. rall. Qed.
Hint Resolve r_Seek : roi.
Lemma r_SeekRead l : rc (RedInodeDataSeekAndRead g l). Proof. unfold RedInodeDataSeekAndRead. rall. Qed.
Hint Resolve r_SeekRead : roi.
Lemma r_RU a b : rc (ReadUnaligned g a b). Proof. unfold ReadUnaligned. rall. Qed.
Hint Resolve r_RU : roi.
Lemma r_el n l f r : rc (extent_loop g n l f r). Proof. revert r. induction n; intros r; cbn [extent_loop]; rall. Qed.
Hint Resolve r_el : roi.
Lemma r_GE l m : rc (GetExtent g l m). Proof. unfold GetExtent. rall. Qed.
Hint Resolve r_GE : roi.
Lemma r_ral f l c i o : rc (read_aligned_loop g f l c i o).
Proof. revert i o. induction f; intros i o; cbn [read_aligned_loop]; rall. Qed.
Hint Resolve r_ral : roi.
Lemma r_RA l c : rc (ReadAligned g l c). Proof. unfold ReadAligned. rall. Qed.
Hint Resolve r_RA : roi.
Lemma r_Read a b : rc (RedInodeDataRead g a b). Proof. unfold RedInodeDataRead. rall. Qed.
Lemma r_ll f i c nm fr : rc (lookup_loop g f i c nm fr).
Proof. revert i fr. induction f; intros i fr; cbn [lookup_loop]; rall. Qed.
Hint Resolve r_Read r_ll : roi.
Lemma r_Lookup nm : rc (RedDirEntryLookup g nm). Proof. unfold RedDirEntryLookup. rall. Qed.
Lemma r_rl f i c : rc (read_loop g f i c). Proof. revert i. induction f; intros i; cbn [read_loop]; rall. Qed.
Hint Resolve r_Lookup r_rl : roi.
Lemma r_DER i : rc (RedDirEntryRead g i). Proof. unfold RedDirEntryRead. rall. Qed.
Hint Resolve r_DER : roi.
Lemma r_CoreLookup p nm : rs (CoreLookup g p nm). Proof. unfold CoreLookup. rall. Qed.
Lemma r_CoreStat i : rs (CoreStat g i). Proof. unfold CoreStat. rall. Qed.
Lemma r_CoreFileRead i a l : rs (CoreFileRead g i a l). Proof. unfold CoreFileRead. rall. Qed.
Lemma r_CoreDirRead i k : rs (CoreDirRead g i k). Proof. unfold CoreDirRead. rall. Qed.
Lemma r_CoreDirParent i : rs (CoreDirParent g i). Proof. unfold CoreDirParent. rall. Qed.
End All.
