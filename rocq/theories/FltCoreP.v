(** Failures in the functions of core.c, and in those that only read. *)
From Verif Require Import Base FsState FsImap FsInode FsData FsDir FsCore FsWr FsRo.
From Verif Require Import FltMonad FltImap FltInode FltData FltDir FltCore FltP.
Ltac Zify.zify_post_hook ::= idtac.
Close Scope flt_scope.

Definition idst (s : st) : st := s.
(** As [flt], for the functions that set and clear fUseReservedBlocks. *)
Definition fltw {A} (bad : res A -> Prop) (m : M st A) (F : MF st A) : Prop :=
  ws m /\ (forall x, F x (fst (m x)) (snd (m x))) /\
  forall x r x', F x r x' -> (s_res x = false -> s_res x' = false) /\ (m x = (r, x') \/ bad r /\ cut x (snd (m x)) x').
Lemma flt_w {A} (bad : res A -> Prop) m F : fs_ bad m F -> fltw bad m F.
Proof. intros (W & I & H). split; auto. split; auto. intros x r x' R. destruct (H x r x' R) as [E X]. split; auto. congruence. Qed.
Lemma fltw_bindG {A B} (bad1 : res A -> Prop) (bad : res B -> Prop) m F (k : A -> M st B) K :
  fltw bad1 m F -> (forall e, bad1 (Err e) -> bad (Err e)) -> (forall a, bad1 (Ok a) -> aft (fun s => s) bad (K a)) ->
  (forall a, fltw bad (k a) (K a)) -> fltw bad (FsState.bind m k) (bind F K).
Proof.
  intros (W & I & H) HE HO HK. split; [|split].
  - apply wok_bind; auto. intros a. apply HK.
  - intros x. unfold FsState.bind, bind. specialize (I x). destruct (m x) as [[a|e] x1] eqn:E; cbn [fst snd] in I.
    + exists (Ok a), x1. split; auto. destruct (HK a) as (_ & J & _). apply J.
    + exists (Err e), x1. auto.
  - intros x r x' (r1 & x1 & R1 & R2). unfold FsState.bind. destruct (H x r1 x1 R1) as (RS & X). pose proof (W x) as WX.
    destruct X as [E|[B1 C1]].
    + rewrite E in WX |- *. cbn [snd] in WX. destruct WX as (_ & _ & WC & _). destruct r1 as [a|e].
      * destruct (HK a) as (_ & _ & J). destruct (J x1 r x' R2) as (RS2 & Y). split; [auto|].
        destruct Y as [Y|(Y1 & Y2 & Y3 & Y4)]; auto. right. split; auto. split; auto. split; [congruence|].
        intros b Hb. destruct (Y4 b Hb); auto. right. unfold com in *. congruence.
      * destruct R2 as [-> ->]. auto.
    + assert (MONO : forall b, s_wr (snd (m x)) b = true -> s_wr (snd (match m x with (Ok a, s') => k a s' | (Err e, s') => (Err e, s') end)) b = true).
      { intros b Hb. destruct (m x) as [[a|e] x2]; auto. cbn [snd] in Hb. destruct (HK a) as (W2 & _). apply (W2 x2). auto. }
      destruct C1 as (Z1 & Z2 & Z3). destruct r1 as [a|e].
      * destruct (HO a B1 x1 r x' R2 Z1) as (Y1 & Y2 & Y3 & Y4 & Y5). split; [intros Q; specialize (RS Q); congruence|]. right. split; auto. split; auto. split; [congruence|].
        intros b Hb. destruct (Y5 b Hb) as [Hc|Hc]; [destruct (Z3 b Hc); auto|]. right. unfold com in *. congruence.
      * destruct R2 as [-> ->]. split; auto. right. split; auto. split; auto. split; auto. intros b Hb. destruct (Z3 b Hb); auto.
Qed.
Lemma fltw_bind {A B} (bad : res B -> Prop) m F (k : A -> M st B) K : bad (Err EIO) ->
  fs_ std m F -> (forall a, fltw bad (k a) (K a)) -> fltw bad (FsState.bind m k) (bind F K).
Proof.
  intros HE HF HK. eapply fltw_bindG; [apply flt_w; exact HF| | |auto].
  - intros e E. unfold std in E. injection E as ->. auto.
  - intros a E. discriminate E.
Qed.
Lemma fltw_runc {A B} (bad : res B -> Prop) (m : MC A) F c (k : res A * cin -> M st B) K :
  fc std m F -> (forall c', aft (fun s => s) bad (K (Err EIO, c'))) -> (forall a, fltw bad (k a) (K a)) -> fltw bad (FsState.bind (FsCore.runc m c) k) (bind (runc F c) K).
Proof.
  intros HF HA HK. eapply fltw_bindG; [apply flt_w, flt_runc; exact HF| | |auto].
  - intros e (x & E). discriminate E.
  - intros a (x & E). injection E as ->. auto.
Qed.
(** fUseReservedBlocks = v; ret = m(); fUseReservedBlocks = false; *)
Lemma bindE {S A B} (m : FsState.M S A) (k : A -> FsState.M S B) s : FsState.bind m k s = match m s with (Ok a, s') => k a s' | (Err e, s') => (Err e, s') end.
Proof. reflexivity. Qed.
Lemma fltw_bracket {A B} g v (m : MC A) F c (k1 k : res A * cin -> M st B) K1 K :
  (forall a, k1 a = FsState.bind (FsCore.use_reserved g false) (fun _ => k a)) -> (forall a, K1 a = bind (use_reserved g false) (fun _ => K a)) ->
  fc std m F -> (forall c', aft (fun s => s) std (K (Err EIO, c'))) -> (forall a, fltw std (k a) (K a)) ->
  fltw std (FsState.bind (FsCore.use_reserved g v) (fun _ => FsState.bind (FsCore.runc m c) k1))
       (bind (use_reserved g v) (fun _ => bind (runc F c) K1)).
Proof.
  intros EK EK' HF HA HK. pose proof (flt_runc _ _ c HF) as (W & I & H).
  assert (WW : ws (FsState.bind (FsCore.use_reserved g v) (fun _ => FsState.bind (FsCore.runc m c) k1))).
  { apply wok_bind; [apply w_use|]. intros _. apply wok_bind; [exact W|]. intros a. rewrite EK. apply wok_bind; [apply w_use|]. intros _. apply HK. }
  assert (STEP : forall s, FsState.bind (FsCore.use_reserved g v) (fun _ => FsState.bind (FsCore.runc m c) k1) s =
     match FsCore.runc m c (if 0 <? RESV g then set_res v s else s) with
     | (Ok a, s2) => k a (if 0 <? RESV g then set_res false s2 else s2) | (Err e, s2) => (Err e, s2) end).
  { intros s. rewrite bindE. unfold FsCore.use_reserved at 1, FsState.modify at 1. rewrite bindE. destruct (FsCore.runc m c _) as [[a|e] s2]; [|reflexivity]. now rewrite EK. }
  split; auto. split.
  - intros s. rewrite STEP. set (s1 := if 0 <? RESV g then set_res v s else s).
    unfold bind. exists (Ok tt), s1. split; [reflexivity|]. specialize (I s1).
    destruct (FsCore.runc m c s1) as [[a|e] s2]; cbn [fst snd] in I.
    + exists (Ok a), s2. split; auto. set (s3 := if 0 <? RESV g then set_res false s2 else s2). rewrite EK'. exists (Ok tt), s3. split; [reflexivity|].
      apply (HK a).
    + exists (Err e), s2. auto.
  - intros s r s' (r1 & s1 & R1 & R2). unfold use_reserved, pure, FsCore.use_reserved, FsState.modify in R1. injection R1 as <- <-.
    rewrite STEP. set (s1 := if 0 <? RESV g then set_res v s else s) in *.
    assert (C1 : s_c s1 = s_c s) by (unfold s1; destruct (0 <? RESV g); reflexivity).
    destruct R2 as (r2 & s2 & R2 & R3). destruct (H s1 r2 s2 R2) as (RS & X). specialize (W s1).
    destruct r2 as [a|e].
    2:{ destruct X as [X|[(x & X) _]]; [|discriminate X]. unfold FsCore.runc in X. destruct (m (s1, c)) as [? [? ?]]. discriminate X. }
    rewrite EK' in R3. destruct R3 as (r3 & s3' & R3 & R4). unfold use_reserved, pure, FsCore.use_reserved, FsState.modify in R3. injection R3 as <- <-.
    set (s3 := if 0 <? RESV g then set_res false s2 else s2) in *.
    assert (R3F : s_res s = false -> s_res s3 = false).
    { intros Q. cbv beta in RS. unfold s3, s1 in *. destruct (0 <? RESV g); [reflexivity|]. now rewrite RS. }
    assert (C3 : s_c s3 = s_c s2 /\ s_wr s3 = s_wr s2 /\ s_ro s3 = s_ro s2) by (unfold s3; destruct (0 <? RESV g); auto).
    destruct C3 as (C3 & C4 & C5). destruct X as [E|[(x & E) (Z1 & Z2 & Z3)]].
    + rewrite E in W |- *. cbn [snd] in W. destruct W as (_ & _ & WC & _). fold s3.
      destruct (HK a) as (_ & _ & J). destruct (J s3 r s' R4) as (RS2 & Y). split; [auto|].
      destruct Y as [Y|(Y1 & Y2 & Y3 & Y4)]; auto. right. split; auto. split; auto. split; [congruence|].
      intros b Hb. destruct (Y4 b Hb); auto. right. unfold com in *. congruence.
    + cbv beta in Z1, Z2, Z3. injection E as ->. destruct (HA x s3 r s' R4 (eq_trans C5 Z1)) as (Y1 & Y2 & Y3 & Y4 & Y5). split; [intros Q; specialize (R3F Q); congruence|].
      right. split; auto. split; auto. split; [congruence|]. intros b Hb.
      destruct (Y5 b Hb) as [Hc|Hc]; [|right; unfold com in *; congruence]. rewrite C4 in Hc. destruct (Z3 b Hc) as [Hd|Hd]; [|right; unfold com in *; congruence].
      left. destruct (FsCore.runc m c s1) as [[a|e] s2']; auto. cbn [snd] in Hd.
      destruct (HK a) as (W2 & _). apply W2. destruct (0 <? RESV g); exact Hd.
Qed.
Lemma fltw_ro {A} bad (m : M st A) F : fltw bad m F -> fltw bad (fun s => if s_ro s then (Err EROFS, s) else m s) (rocheck F).
Proof.
  intros (W & I & H). split; [|split].
  - intros s. destruct (s_ro s) eqn:E; [apply wle_refl|apply W].
  - intros s. unfold rocheck. destruct (s_ro s) eqn:E; auto.
  - intros s r s'. unfold rocheck. destruct (s_ro s) eqn:E; [|apply H]. intros [-> ->]. auto.
Qed.

(** * Steps after a failure *)
Ltac wnew := intros ?s; split; [exact Logic.I|split; [reflexivity|auto]].
Section Aft.
Variable g : cfg.
Notation anyr := (fun _ => True).
Lemma aft_cassert {A} (F : MF st A) : aft (fun s => s) anyr F -> aft (fun s => s) anyr (critical_assert F).
Proof. intros H s r s' (s1 & R & ->) RO. destruct (H _ _ _ R RO) as (A1 & A2 & A3 & A4 & A5). destruct r; cbn; auto. Qed.
Lemma aft_lift {A} bad (F : MF st A) : aft (fun s => s) bad F -> aft (fst : st * cin -> st) bad (lift F).
Proof. intros H [s c] r [s' c'] (R & E) RO. cbn in *. exact (H _ _ _ R RO). Qed.
Lemma aft_finish {A} bad (F : MCF A) c : aft (fst : st * cin -> st) bad F -> aft (fun s => s) bad (finish F c).
Proof. intros H s r s' (c' & R) RO. exact (H _ _ _ R RO). Qed.
Lemma aft_any {S A B} (p : S -> st) (F : MF S A) (K : A -> MF S B) : aft p anyr F -> (forall a, aft p anyr (K a)) -> aft p anyr (bind F K).
Proof. intros. eapply (aft_bind p anyr); eauto. Qed.
Lemma aft_discard b : aft (fun s => s) anyr (pure (FsState.modify (discard_block b))).
Proof.
  apply aft_pure; [intros s; apply wle_discard|]. intros s. cbn. unfold discard_block. destruct (com s b) eqn:E; [auto|]. split; auto. split; auto.
  intros x. cbn. unfold upd. destruct (N.eqb_spec x b) as [->|]; auto.
Qed.
Lemma aft_setw f : aft (fun s => s) anyr (pure (FsState.modify (fun s => set_w (f s) s))).
Proof. apply aft_pure; [intros s; apply wle_w|]. wnew. Qed.
Lemma aft_BlockGet w b : aft (fun s => s) anyr (RedImapBlockGet g w b).
Proof. apply aft_io; auto. apply aft_pure; [apply w_BlockGet|]. intros s. unfold FsImap.RedImapBlockGet. destruct (_ || _); auto. Qed.
Lemma aft_BlockSet b al : aft (fun s => s) anyr (RedImapBlockSet g b al).
Proof.
  intros s. unfold RedImapBlockSet. destruct (_ || _); [apply (aft_fail (fun s => s) anyr EINVAL); auto|].
  destruct (_ && _); [apply (aft_critical anyr EFUBAR); auto|].
  match goal with |- forall r x', ?F s r x' -> _ => revert s; change (aft (fun s => s) anyr F) end.
  apply aft_any.
  { apply aft_attempt. apply aft_io; auto. apply aft_pure.
    - intros s. unfold FsImap.RedImapIBlockSet. destruct (Bool.eqb _ _); [apply wle_ro|apply wle_w].
    - intros s. unfold FsImap.RedImapIBlockSet. destruct (Bool.eqb _ _); cbn; auto. }
  intros r. apply aft_any; [apply aft_pure; [intros s; apply wle_br|wnew]|intros _]. destruct r as [[]|e]; [|apply aft_fail; auto].
  apply aft_any; [destruct al; [apply aft_ret; auto|apply aft_discard]|intros _].
  destruct (FA g <=? b); [|apply aft_ret; auto]. destruct al; [apply aft_setw|].
  apply aft_any; [apply aft_cassert, aft_BlockGet|intros w]. destruct w; [|apply aft_setw].
  apply aft_pure; [intros s; apply wle_afree|wnew].
Qed.
Lemma aft_Free : aft (fst : st * cin -> st) anyr (RedInodeFree g).
Proof.
  unfold RedInodeFree. apply aft_any; [apply aft_pure; [apply wc_getc|wnew]|intros c]. destruct (negb _); [apply aft_fail; auto|].
  apply aft_any; [apply aft_pure; [apply wc_modc|wnew]|intros _]. apply aft_lift.
  assert (BG : forall i k, aft (fun s => s) anyr (RedInodeBitGet g true i k)).
  { intros. unfold RedInodeBitGet. destruct (_ || _); [apply aft_fail; auto|apply aft_BlockGet]. }
  assert (BS : forall i k al, aft (fun s => s) anyr (InodeBitSet g i k al)).
  { intros. unfold InodeBitSet. destruct (_ || _); [apply aft_fail; auto|apply aft_BlockSet]. }
  apply aft_any; [apply aft_io; [auto|apply aft_discard]|intros _].
  apply aft_any; [apply BG|intros a]. apply aft_any; [apply BG|intros b].
  apply aft_any; [|intros _].
  { destruct a, b; cbn [negb]; first [apply aft_critical; auto|apply BS]. }
  apply aft_any; [|intros f].
  { apply aft_io; auto. apply aft_pure; [apply wok_gets|wnew]. }
  destruct (ICNT g <=? f); [apply aft_critical; auto|apply aft_io; [auto|apply aft_setw]].
Qed.
End Aft.

Section Core.
Variable g : cfg.
Hint Resolve f_Mount f_Create f_Branch f_Lookup f_DEC f_DED f_Free f_LD f_Write f_Trunc f_Read f_DER : flt.
Lemma c_Create pi nm d : fltw anyerr (FsCore.CoreCreate g pi nm d) (CoreCreate g pi nm d).
Proof.
  apply fltw_ro. apply fltw_bind; [eexists; reflexivity|apply f_Mount|intros c].
  apply fltw_bind; [eexists; reflexivity|apply f_Create|intros i].
  eapply fltw_runc; [fall| |].
  - intros c'. cbn. eapply (aft_bind _ (fun r => exists a, r = Ok a)).
    + apply aft_attempt. eapply aft_imp; [|apply aft_cassert, aft_finish, aft_Free]. intros r _. exists r. reflexivity.
    + intros e (a & E); discriminate E.
    + intros a _. apply aft_fail. eexists; reflexivity.
  - intros [[[]|e] c']; [apply flt_w, flt_ret|]. cbn [fst snd].
    eapply (fltw_bindG satt); [apply flt_w, flt_attempt, flt_cassert, flt_finish, f_Free| | |].
    + intros x E; discriminate E.
    + intros a E. apply aft_fail. eexists; reflexivity.
    + intros a. apply flt_w, flt_fail.
Qed.
Lemma c_Link pi nm i : fltw std (FsCore.CoreLink g pi nm i) (CoreLink g pi nm i).
Proof.
  apply fltw_ro. apply fltw_bind; [reflexivity|apply f_Mount|intros c].
  eapply (fltw_bindG satt); [apply flt_w, flt_attempt, f_Mount|intros e E; discriminate E| |].
  { intros a E. unfold satt in E. injection E as ->. apply aft_fail. reflexivity. }
  intros [ci|e]; [|destruct e; apply flt_w, flt_fail]. destruct (_ =? _); [apply flt_w, flt_fail|].
  eapply fltw_runc; [apply f_Branch|intros c'; apply aft_fail; reflexivity|]. intros [[[]|e] c1]; [|apply flt_w, flt_fail].
  eapply fltw_runc; [apply f_Branch|intros c'; apply aft_fail; reflexivity|]. intros [[[]|e] c2]; [|apply flt_w, flt_fail].
  eapply fltw_runc; [apply f_DEC|intros c'; apply aft_fail; reflexivity|]. intros [[[]|e] c3]; [|apply flt_w, flt_fail].
  apply flt_w, flt_finish, flt_iset.
Qed.
Lemma c_Unlink pi nm : fltw std (FsCore.CoreUnlink g pi nm) (CoreUnlink g pi nm).
Proof.
  apply fltw_ro. apply fltw_bind; [reflexivity|apply f_Mount|intros c].
  eapply fltw_runc; [apply f_Lookup|intros c'; apply aft_fail; reflexivity|]. intros [[l|e] c1]; [|apply flt_w, flt_fail].
  destruct l as [idx ino|]; [|apply flt_w, flt_fail].
  eapply fltw_runc; [apply f_Branch|intros c'; apply aft_fail; reflexivity|]. intros [[[]|e] c2]; [|apply flt_w, flt_fail].
  apply fltw_bind; [reflexivity|apply f_Mount|intros ci]. destruct (_ && _); [apply flt_w, flt_fail|].
  apply (fltw_bracket g true (FsDir.RedDirEntryDelete g idx) (RedDirEntryDelete g idx) c2 _
      (fun a => let '(rd, _) := a in match rd with Err e => FsState.fail e | Ok _ => FsState.critical_assert (FsCore.finish (FsData.RedInodeLinkDec g) ci) end) _
      (fun a => let '(rd, _) := a in match rd with Err e => fail e | Ok _ => critical_assert (finish (RedInodeLinkDec g) ci) end)).
  - intros [? ?]; reflexivity.
  - intros [? ?]; reflexivity.
  - apply f_DED.
  - intros c'. apply aft_fail. reflexivity.
  - intros [[[]|e] c']; [|apply flt_w, flt_fail]. apply flt_w, flt_cassert, flt_finish, f_LD.
Qed.
Lemma c_Truncate i z : fltw std (FsCore.CoreFileTruncate g i z) (CoreFileTruncate g i z).
Proof.
  apply fltw_ro. apply fltw_bind; [reflexivity|apply f_Mount|intros c].
  apply (fltw_bracket g _ (FsData.RedInodeDataTruncate g z) (RedInodeDataTruncate g z) c _
    (fun a => let '(r, _) := a in FsState.lift_res r) _ (fun a => let '(r, _) := a in lift_res r)).
  - intros [? ?]; reflexivity.
  - intros [? ?]; reflexivity.
  - apply f_Trunc.
  - intros c'. apply aft_lift_res. reflexivity.
  - intros [r c']. apply flt_w, flt_lift_res.
Qed.
Lemma c_Write i a l src : fltw std (FsCore.CoreFileWrite g i a l src) (CoreFileWrite g i a l src).
Proof. apply fltw_ro. apply flt_w. fall. Qed.
Lemma c_Rename a b c d : fltw std (FsCore.CoreRename g a b c d) (CoreRename g a b c d).
Proof.
  apply fltw_ro. apply flt_w. apply flt_bind; [reflexivity|apply f_Mount|intros cs].
  apply flt_bind; [reflexivity|fall|intros cd].
  apply flt_bind; [reflexivity|apply (flt_runp std _ _ (cs, cd) (f_Ren g b d))|]. intros [[[sino dino] ?] di]. fall.
Qed.
Lemma c_Lookup pi nm : fs_ std (FsCore.CoreLookup g pi nm) (CoreLookup g pi nm). Proof. unfold CoreLookup, FsCore.CoreLookup. fall. Qed.
Lemma c_Stat i : fs_ std (FsCore.CoreStat g i) (CoreStat g i). Proof. unfold CoreStat, FsCore.CoreStat. fall. Qed.
Lemma c_FileRead i a l : fs_ std (FsCore.CoreFileRead g i a l) (CoreFileRead g i a l). Proof. unfold CoreFileRead, FsCore.CoreFileRead. fall. Qed.
Lemma c_DirRead i k : fs_ std (FsCore.CoreDirRead g i k) (CoreDirRead g i k). Proof. unfold CoreDirRead, FsCore.CoreDirRead. fall. Qed.
Lemma c_DirParent i : fs_ std (FsCore.CoreDirParent g i) (CoreDirParent g i). Proof. unfold CoreDirParent, FsCore.CoreDirParent. fall. Qed.
End Core.

(** * Reading changes nothing; after a failure the volume is read-only. *)
Section Rdo.
Context {S : Type}.
Variable p : S -> st.
Definition rdo {A} (F : MF S A) : Prop := forall x r x', F x r x' -> p x' = p x \/ p x' = set_ro true (p x).
Lemma rdo_pure {A} (m : FsState.M S A) : (forall x, p (snd (m x)) = p x \/ p (snd (m x)) = set_ro true (p x)) -> rdo (pure m).
Proof. intros H x r x' E. unfold pure in E. specialize (H x). now rewrite E in H. Qed.
Lemma rdo_ret {A} (a : A) : rdo (ret a). Proof. apply rdo_pure. intros; left; reflexivity. Qed.
Lemma rdo_fail {A} e : rdo (@fail S A e). Proof. apply rdo_pure. intros; left; reflexivity. Qed.
Lemma rdo_bind {A B} (F : MF S A) (K : A -> MF S B) : rdo F -> (forall a, rdo (K a)) -> rdo (bind F K).
Proof.
  intros HF HK x r x' (r1 & x1 & R1 & R2). destruct r1 as [a|e]; [|destruct R2 as [-> ->]; apply (HF _ _ _ R1)].
  destruct (HK a _ _ _ R2) as [E|E], (HF _ _ _ R1) as [E'|E']; rewrite E, E'; auto.
Qed.
Lemma rdo_attempt {A} (F : MF S A) : rdo F -> rdo (attempt F).
Proof. intros H x r x' (r1 & R & ->). exact (H _ _ _ R). Qed.
End Rdo.
Notation r1 := (rdo (fun s : st => s)).
Notation r2 := (rdo (fst : st * cin -> st)).
Lemma rdo_io {A} (m : M st A) : r1 (pure m) -> r1 (io m).
Proof. intros H s r s' [E|[-> ->]]; [exact (H _ _ _ E)|auto]. Qed.
Lemma rdo_gets {A} (f : st -> A) : r1 (gets f). Proof. apply rdo_io, rdo_pure. intros; left; reflexivity. Qed.
Lemma rdo_lift {A} (F : MF st A) : r1 F -> r2 (lift F).
Proof. intros H [s c] r [s' c'] (R & E). exact (H _ _ _ R). Qed.
Lemma rdo_finish {A} (F : MCF A) c : r2 F -> r1 (finish F c).
Proof. intros H s r s' (c' & R). exact (H _ _ _ R). Qed.
Lemma rdo_getc : r2 getc. Proof. apply rdo_pure. intros; left; reflexivity. Qed.
Lemma rdo_modc f : r2 (modc f). Proof. apply rdo_pure. intros; left; reflexivity. Qed.
Create HintDb rdo.
Ltac dstep :=
  match goal with
  | |- rdo _ (ret _) => apply rdo_ret
  | |- rdo _ (fail _) => apply rdo_fail
  | |- rdo _ (gets _) => apply rdo_gets
  | |- rdo _ getc => apply rdo_getc
  | |- rdo _ (modc _) => apply rdo_modc
  | |- rdo _ (bind _ _) => apply rdo_bind; [|intros]
  | |- rdo _ (attempt _) => apply rdo_attempt
  | |- rdo _ (lift _) => apply rdo_lift
  | |- rdo _ (finish _ _) => apply rdo_finish
  | |- rdo _ (match ?x with _ => _ end) => destruct x
  | |- rdo _ _ => solve [auto with rdo]
  end.
Ltac dall := repeat dstep.
Section RdoAll.
Variable g : cfg.
Lemma d_BlockGet w b : r1 (RedImapBlockGet g w b).
Proof. apply rdo_io, rdo_pure. intros s. unfold FsImap.RedImapBlockGet. destruct (_ || _); auto. Qed.
Lemma d_State b : r1 (RedImapBlockState g b).
Proof. apply rdo_io, rdo_pure. intros s. unfold FsImap.RedImapBlockState. destruct (_ || _); auto. Qed.
Hint Resolve d_BlockGet d_State : rdo.
Lemma d_BitGet w i k : r1 (RedInodeBitGet g w i k). Proof. unfold RedInodeBitGet. dall. Qed.
Hint Resolve d_BitGet : rdo.
Lemma d_Cur i : r1 (InodeGetCurrentCopy g i). Proof. unfold InodeGetCurrentCopy. dall. Qed.
Lemma d_IsBr i : r1 (InodeIsBranched g i). Proof. unfold InodeIsBranched. dall. Qed.
Lemma d_get_inode b : r1 (get_inode b).
Proof. apply rdo_io, rdo_pure. intros s. unfold FsInode.get_inode. destruct (dk s b); auto. Qed.
Hint Resolve d_Cur d_IsBr d_get_inode : rdo.
Lemma d_Mount i ty : r1 (RedInodeMount g i ty false). Proof. unfold RedInodeMount. dall. Qed.
Lemma d_gi b : r1 (get_indir b). Proof. apply rdo_io, rdo_pure. intros s. unfold FsData.get_indir. destruct (dk s b); auto. Qed.
Lemma d_gd b : r1 (get_dindir b). Proof. apply rdo_io, rdo_pure. intros s. unfold FsData.get_dindir. destruct (dk s b); auto. Qed.
Hint Resolve d_Mount d_gi d_gd : rdo.
Lemma d_Seek l : r2 (SeekInode g l). Proof. unfold SeekInode. dall. Qed.
Hint Resolve d_Seek : rdo.
Lemma d_SeekRead l : r2 (RedInodeDataSeekAndRead g l). Proof. unfold RedInodeDataSeekAndRead. dall. Qed.
Hint Resolve d_SeekRead : rdo.
Lemma d_RU a b : r2 (ReadUnaligned g a b). Proof. unfold ReadUnaligned. dall. Qed.
Hint Resolve d_RU : rdo.
Lemma d_el n l f r : r2 (extent_loop g n l f r). Proof. revert r. induction n; intros r; cbn [extent_loop]; dall. Qed.
Hint Resolve d_el : rdo.
Lemma d_GE l m : r2 (GetExtent g l m). Proof. unfold GetExtent. dall. Qed.
Hint Resolve d_GE : rdo.
Lemma d_ral f l c i o : r2 (read_aligned_loop g f l c i o). Proof. revert i o. induction f; intros i o; cbn [read_aligned_loop]; dall. Qed.
Hint Resolve d_ral : rdo.
Lemma d_RA l c : r2 (ReadAligned g l c). Proof. unfold ReadAligned. dall. Qed.
Hint Resolve d_RA : rdo.
Lemma d_Read a b : r2 (RedInodeDataRead g a b). Proof. unfold RedInodeDataRead. dall. Qed.
Lemma d_ll f i c nm fr : r2 (lookup_loop g f i c nm fr). Proof. revert i fr. induction f; intros i fr; cbn [lookup_loop]; dall. Qed.
Hint Resolve d_Read d_ll : rdo.
Lemma d_LookupD nm : r2 (RedDirEntryLookup g nm). Proof. unfold RedDirEntryLookup. dall. Qed.
Lemma d_rl f i c : r2 (read_loop g f i c). Proof. revert i. induction f; intros i; cbn [read_loop]; dall. Qed.
Hint Resolve d_LookupD d_rl : rdo.
Lemma d_DER i : r2 (RedDirEntryRead g i). Proof. unfold RedDirEntryRead. dall. Qed.
Hint Resolve d_DER : rdo.
Lemma d_Lookup pi nm : r1 (CoreLookup g pi nm). Proof. unfold CoreLookup. dall. Qed.
Lemma d_Stat i : r1 (CoreStat g i). Proof. unfold CoreStat. dall. Qed.
Lemma d_FileRead i a l : r1 (CoreFileRead g i a l). Proof. unfold CoreFileRead. dall. Qed.
Lemma d_DirRead i k : r1 (CoreDirRead g i k). Proof. unfold CoreDirRead. dall. Qed.
Lemma d_DirParent i : r1 (CoreDirParent g i). Proof. unfold CoreDirParent. dall. Qed.
End RdoAll.
