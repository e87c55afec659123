(** Runs of the core with device failures (Flt*.v), compared with the runs without (Fs*.v): as long as no step fails the
    runs are the same; from the first failure on the volume is read-only, the committed metaroot is untouched, and no
    block of the committed state is written that the run without failures would not have written. *)
From Verif Require Import Base FsState FsImap FsInode FsData FsDir FsCore FsWr.
From Verif Require Import FltMonad FltImap FltInode FltData FltDir FltCore.
Ltac Zify.zify_post_hook ::= idtac.
Close Scope flt_scope.

(** [cut s s1 s']: a failed run from s to s', where the run without failures ends in s1. *)
Definition cut (s s1 s' : st) : Prop :=
  s_ro s' = true /\ s_c s' = s_c s /\ forall b, s_wr s' b = true -> s_wr s1 b = true \/ com s b = false.
Definition std {A} (r : res A) : Prop := r = Err EIO.
Definition anyerr {A} (r : res A) : Prop := exists e, r = Err e.

Section Flt.
Context {S : Type}.
Variable p : S -> st.
Notation M := (FsState.M S).
(** The runs of F are those of m and failed ones, whose results satisfy [bad]. *)
Definition flt {A} (bad : res A -> Prop) (m : M A) (F : MF S A) : Prop :=
  wok p m /\ (forall x, F x (fst (m x)) (snd (m x))) /\
  forall x r x', F x r x' -> s_res (p x') = s_res (p x) /\ (m x = (r, x') \/ bad r /\ cut (p x) (p (snd (m x))) (p x')).
(** F run after a failure. *)
Definition aft {A} (bad : res A -> Prop) (F : MF S A) : Prop :=
  forall x r x', F x r x' -> s_ro (p x) = true ->
    bad r /\ s_ro (p x') = true /\ s_res (p x') = s_res (p x) /\ s_c (p x') = s_c (p x) /\
    forall b, s_wr (p x') b = true -> s_wr (p x) b = true \/ com (p x) b = false.

Lemma flt_eq {A} bad (m m' : M A) F : (forall x, m x = m' x) -> flt bad m' F -> flt bad m F.
Proof.
  intros E (W & I & H). split; [|split].
  - intros x. rewrite E. apply W.
  - intros x. rewrite E. apply I.
  - intros x r x' R. rewrite E. apply H; auto.
Qed.
Lemma flt_pure {A} bad (m : M A) : wok p m -> (forall x, s_res (p (snd (m x))) = s_res (p x)) -> flt bad m (pure m).
Proof.
  intros W R. split; [auto|]. split.
  - intros x. unfold pure. now destruct (m x).
  - intros x r x' E. unfold pure in E. split; auto. specialize (R x). now rewrite E in R.
Qed.
Lemma flt_ret {A} bad (a : A) : flt bad (FsState.ret a) (ret a).
Proof. apply flt_pure; [apply wok_ret|reflexivity]. Qed.
Lemma flt_fail {A} (bad : res A -> Prop) e : flt bad (FsState.fail e) (fail e).
Proof. apply flt_pure; [apply wok_fail|reflexivity]. Qed.
Lemma flt_lift_res {A} bad (a : res A) : flt bad (FsState.lift_res a) (lift_res a).
Proof. apply flt_pure; [apply wok_lift_res|reflexivity]. Qed.
Lemma flt_imp {A} (bad bad' : res A -> Prop) m F : (forall r, bad r -> bad' r) -> flt bad m F -> flt bad' m F.
Proof. intros H (W & I & K). split; auto. split; auto. intros x r x' R. destruct (K x r x' R) as [A1 [A2|[A2 A3]]]; auto. Qed.

Lemma flt_bindG {A B} (bad1 : res A -> Prop) (bad : res B -> Prop) m F (k : A -> M B) K :
  flt bad1 m F -> (forall e, bad1 (Err e) -> bad (Err e)) -> (forall a, bad1 (Ok a) -> aft bad (K a)) ->
  (forall a, flt bad (k a) (K a)) -> flt bad (FsState.bind m k) (bind F K).
Proof.
  intros (W & I & H) HE HO HK. split; [|split].
  - apply wok_bind; auto. intros a. apply HK.
  - intros x. unfold FsState.bind, bind. specialize (I x). destruct (m x) as [[a|e] x1] eqn:E; cbn [fst snd] in I.
    + exists (Ok a), x1. split; auto. destruct (HK a) as (_ & J & _). apply J.
    + exists (Err e), x1. auto.
  - intros x r x' (r1 & x1 & R1 & R2). unfold FsState.bind. destruct (H x r1 x1 R1) as (RS & X). pose proof (W x) as WX.
    destruct X as [E|[B1 C1]].
    + rewrite E in WX |- *. cbn [snd] in WX. destruct WX as (_ & _ & WC & _). destruct r1 as [a|e].
      * destruct (HK a) as (_ & _ & J). destruct (J x1 r x' R2) as (RS2 & Y). split; [congruence|].
        destruct Y as [Y|(Y1 & Y2 & Y3 & Y4)]; auto. right. split; auto. split; auto. split; [congruence|].
        intros b Hb. destruct (Y4 b Hb); auto. right. unfold com in *. congruence.
      * destruct R2 as [-> ->]. auto.
    + assert (MONO : forall b, s_wr (p (snd (m x))) b = true -> s_wr (p (snd (match m x with (Ok a, s') => k a s' | (Err e, s') => (Err e, s') end))) b = true).
      { intros b Hb. destruct (m x) as [[a|e] x2]; auto. cbn [snd] in Hb. destruct (HK a) as (W2 & _). apply (W2 x2). auto. }
      destruct C1 as (Z1 & Z2 & Z3). destruct r1 as [a|e].
      * destruct (HO a B1 x1 r x' R2 Z1) as (Y1 & Y2 & Y3 & Y4 & Y5). split; [congruence|]. right. split; auto. split; auto. split; [congruence|].
        intros b Hb. destruct (Y5 b Hb) as [Hc|Hc]; [destruct (Z3 b Hc); auto|]. right. unfold com in *. congruence.
      * destruct R2 as [-> ->]. split; auto. right. split; auto. split; auto. split; auto. intros b Hb. destruct (Z3 b Hb); auto.
Qed.
Lemma flt_bind {A B} (bad : res B -> Prop) m F (k : A -> M B) K : bad (Err EIO) ->
  flt std m F -> (forall a, flt bad (k a) (K a)) -> flt bad (FsState.bind m k) (bind F K).
Proof.
  intros HE HF HK. eapply flt_bindG; eauto.
  - intros e E. unfold std in E. injection E as ->. auto.
  - intros a E. discriminate E.
Qed.
Definition satt {A} (r : res (res A)) : Prop := r = Ok (Err EIO).
Lemma flt_attemptG {A} (bad : res A -> Prop) (bad' : res (res A) -> Prop) (m : M A) F :
  (forall r, bad r -> bad' (Ok r)) -> flt bad m F -> flt bad' (FsState.attempt m) (attempt F).
Proof.
  intros HB (W & I & H). split; [|split].
  - now apply wok_attempt.
  - intros x. unfold FsState.attempt, attempt. specialize (I x). destruct (m x) as [r x1]. exists r. auto.
  - intros x r x' (r1 & R & ->). destruct (H x r1 x' R) as (RS & X). split; auto. unfold FsState.attempt.
    destruct (m x) as [r0 x0]. destruct X as [E|[E C]]; [left; congruence|]. right. split; auto.
Qed.
Lemma flt_attempt {A} (m : M A) F : flt std m F -> flt satt (FsState.attempt m) (attempt F).
Proof. apply flt_attemptG. intros r ->. reflexivity. Qed.
Lemma flt_bind_attempt {A B} (bad : res B -> Prop) m F (k : res A -> M B) K :
  flt std m F -> aft bad (K (Err EIO)) -> (forall a, flt bad (k a) (K a)) -> flt bad (FsState.bind (FsState.attempt m) k) (bind (attempt F) K).
Proof.
  intros HF HA HK. eapply flt_bindG; [apply flt_attempt; eauto| | |auto].
  - intros e E; discriminate E.
  - intros a E. unfold satt in E. injection E as ->. auto.
Qed.
Lemma flt_loop n i body Fb : (forall k, flt std (body k) (Fb k)) -> flt std (FsState.loop n i body) (loop n i Fb).
Proof.
  intros H. revert i. induction n; intros i; cbn [loop FsState.loop]; [apply flt_ret|]. apply flt_bind; auto. reflexivity.
Qed.

Lemma aft_pure {A} (bad : res A -> Prop) (m : M A) : wok p m -> (forall x, bad (fst (m x)) /\ s_res (p (snd (m x))) = s_res (p x) /\
    forall b, s_wr (p (snd (m x))) b = true -> s_wr (p x) b = true \/ com (p x) b = false) -> aft bad (pure m).
Proof.
  intros W H x r x' E RO. unfold pure in E. specialize (W x). specialize (H x). rewrite E in *. cbn [fst snd] in *.
  destruct W as (W1 & W2 & W3 & W4 & W5). intuition.
Qed.
Lemma aft_fail {A} (bad : res A -> Prop) e : bad (Err e) -> aft bad (fail e).
Proof. intros H. apply aft_pure; [apply wok_fail|]. intros x. split; auto. Qed.
Lemma aft_ret {A} (bad : res A -> Prop) a : bad (Ok a) -> aft bad (ret a).
Proof. intros H. apply aft_pure; [apply wok_ret|]. intros x. split; auto. Qed.
Lemma aft_lift_res {A} (bad : res A -> Prop) a : bad a -> aft bad (lift_res a).
Proof. intros H. apply aft_pure; [apply wok_lift_res|]. intros x. split; auto. Qed.
Lemma aft_bind {A B} (bad1 : res A -> Prop) (bad : res B -> Prop) F K : aft bad1 F -> (forall e, bad1 (Err e) -> bad (Err e)) ->
  (forall a, bad1 (Ok a) -> aft bad (K a)) -> aft bad (bind F K).
Proof.
  intros HF HE HK x r x' (r1 & x1 & R1 & R2) RO. destruct (HF _ _ _ R1 RO) as (A1 & A2 & A3 & A4 & A5). destruct r1 as [a|e].
  - destruct (HK a A1 x1 r x' R2 A2) as (B1 & B2 & B3 & B4 & B5). split; auto. split; auto. split; [congruence|]. split; [congruence|].
    intros b Hb. destruct (B5 b Hb) as [Hc|Hc]; auto. right. unfold com in *. congruence.
  - destruct R2 as [-> ->]. split; auto.
Qed.
Lemma aft_imp {A} (bad bad' : res A -> Prop) F : (forall r, bad r -> bad' r) -> aft bad F -> aft bad' F.
Proof. intros H K x r x' R RO. destruct (K x r x' R RO) as (A1 & A2). split; auto. Qed.
Lemma aft_attempt {A} (bad : res (res A) -> Prop) F : aft (fun r => bad (Ok r)) F -> aft bad (attempt F).
Proof. intros H x r x' (r1 & R & ->) RO. exact (H _ _ _ R RO). Qed.
End Flt.
Notation fs_ := (flt (fun s : st => s)).
Notation fc := (flt (fst : st * _ -> st)).
Notation idst := (fun s : st => s).

Lemma flt_io {A} (m : M st A) : ws m -> (forall s, s_res (snd (m s)) = s_res s) -> fs_ std m (io m).
Proof.
  intros W R. split; [auto|]. split.
  - intros x. left. now destruct (m x).
  - intros x r x' [E|[-> ->]].
    + split; auto. specialize (R x). now rewrite E in R.
    + split; [reflexivity|]. right. split; [reflexivity|]. split; [reflexivity|]. split; [reflexivity|].
      intros b Hb. left. apply (W x). exact Hb.
Qed.
Lemma aft_io {A} (bad : res A -> Prop) (m : M st A) : bad (Err EIO) -> aft idst bad (pure m) -> aft idst bad (io m).
Proof. intros HB H x r x' [E|[-> ->]] RO; [apply (H x r x' E RO)|]. cbn. split; auto. Qed.
Lemma flt_gets {A} (f : st -> A) : fs_ std (FsState.gets f) (gets f).
Proof. apply flt_io; [apply wok_gets|reflexivity]. Qed.
Lemma flt_modify f : ws (FsState.modify f) -> (forall s, s_res (f s) = s_res s) -> fs_ std (FsState.modify f) (modify f).
Proof. intros. apply flt_io; auto. Qed.
Lemma flt_critical {A} bad e : fs_ bad (@FsState.critical A e) (critical e).
Proof. apply flt_pure; [apply ws_critical|reflexivity]. Qed.
Lemma flt_cassert {A} (m : M st A) F : fs_ std m F -> fs_ std (FsState.critical_assert m) (critical_assert F).
Proof.
  intros (W & I & H). split; [now apply ws_cassert|]. split.
  - intros x. unfold FsState.critical_assert, critical_assert. specialize (I x). destruct (m x) as [[a|e] x1]; cbn [fst snd] in *; exists x1; auto.
  - intros x r x' (x1 & R & ->). destruct (H x r x1 R) as (RS & X). split; [destruct r; auto|]. unfold FsState.critical_assert.
    destruct X as [E|[E C]].
    + rewrite E. left. destruct r; reflexivity.
    + right. split; auto. destruct C as (C1 & C2 & C3). rewrite E. split; [reflexivity|]. split; [exact C2|].
      intros b Hb. cbn in Hb. destruct (C3 b Hb) as [Hc|Hc]; auto. left. destruct (m x) as [[|] ?]; exact Hc.
Qed.
Lemma flt_cassert_c {A} (m : MC A) F : fc std m F -> fc std (FsData.critical_assert_c m) (critical_assert_c F).
Proof.
  intros (W & I & H). split; [now apply wc_cassert|]. split.
  - intros x. unfold FsData.critical_assert_c, critical_assert_c. specialize (I x). destruct (m x) as [[a|e] [s1 c1]]; cbn [fst snd] in *; exists (s1, c1); auto.
  - intros x r x' (x1 & R & ->). destruct (H x r x1 R) as (RS & X). split; [destruct r; auto|]. unfold FsData.critical_assert_c.
    destruct X as [E|[E C]].
    + rewrite E. left. destruct r, x1; reflexivity.
    + right. split; auto. destruct C as (C1 & C2 & C3). rewrite E. split; [reflexivity|]. split; [exact C2|].
      intros b Hb. cbn in Hb. destruct (C3 b Hb) as [Hc|Hc]; auto. left. destruct (m x) as [[|] [? ?]]; exact Hc.
Qed.
Lemma flt_lift {A} bad (m : M st A) F : fs_ bad m F -> fc bad (FsInode.lift m) (lift F).
Proof.
  intros (W & I & H). split; [now apply wc_lift|]. split.
  - intros [s c]. unfold FsInode.lift, lift. cbn [fst snd]. specialize (I s). destruct (m s); auto.
  - intros [s c] r [s' c'] (R & E). cbn [fst snd] in *. subst c'. destruct (H s r s' R) as (RS & X). split; auto. unfold FsInode.lift. cbn [fst snd].
    destruct (m s) as [r0 s0]. destruct X as [X|X]; [left; congruence|right; exact X].
Qed.
Lemma flt_liftp {A} bad (m : M st A) F : fs_ bad m F -> fc bad (FsDir.liftp m) (liftp F).
Proof.
  intros (W & I & H). split; [now apply wp_liftp|]. split.
  - intros [s c]. unfold FsDir.liftp, liftp. cbn [fst snd]. specialize (I s). destruct (m s); auto.
  - intros [s c] r [s' c'] (R & E). cbn [fst snd] in *. subst c'. destruct (H s r s' R) as (RS & X). split; auto. unfold FsDir.liftp. cbn [fst snd].
    destruct (m s) as [r0 s0]. destruct X as [X|X]; [left; congruence|right; exact X].
Qed.
Lemma flt_onsrc {A} bad (m : MC A) F : fc bad m F -> fc bad (FsDir.onsrc m) (onsrc F).
Proof.
  intros (W & I & H). split; [now apply wp_onsrc|]. split.
  - intros [s [cs od]]. unfold FsDir.onsrc, onsrc. cbn [fst snd]. specialize (I (s, cs)). destruct (m (s, cs)) as [r [s' c']]; auto.
  - intros [s [cs od]] r [s' [cs' od']] (R & E). cbn [fst snd] in *. subst od'. destruct (H _ _ _ R) as (RS & X). split; auto. unfold FsDir.onsrc. cbn [fst snd].
    destruct (m (s, cs)) as [r0 [s0 c0]]. destruct X as [X|X]; [left; congruence|right; exact X].
Qed.
Lemma flt_ondst {A} bad (m : MC A) F : fc bad m F -> fc bad (FsDir.ondst m) (ondst F).
Proof.
  intros (W & I & H). split; [now apply wp_ondst|]. split.
  - intros [s [cs [cd|]]]; unfold FsDir.ondst, ondst; cbn [fst snd].
    + specialize (I (s, cd)). destruct (m (s, cd)) as [r [s' c']]; cbn [fst snd] in *. exists c'. auto.
    + specialize (I (s, cs)). destruct (m (s, cs)) as [r [s' c']]; auto.
  - intros [s [cs [cd|]]] r [s' [cs' od']]; unfold FsDir.ondst, ondst; cbn [fst snd].
    + intros (c' & R & E). injection E as -> ->. destruct (H _ _ _ R) as (RS & X). split; auto.
      destruct (m (s, cd)) as [r0 [s0 c0]]. destruct X as [X|X]; [left; congruence|right; exact X].
    + intros (R & ->). destruct (H _ _ _ R) as (RS & X). split; auto.
      destruct (m (s, cs)) as [r0 [s0 c0]]. destruct X as [X|X]; [left; congruence|right; exact X].
Qed.
Definition srunc {A} (r : res (res A * cin)) : Prop := exists c, r = Ok (Err EIO, c).
Lemma flt_runc {A} (m : MC A) F c : fc std m F -> fs_ srunc (FsCore.runc m c) (runc F c).
Proof.
  intros (W & I & H). split; [now apply ws_runc|]. split.
  - intros s. unfold FsCore.runc, runc. specialize (I (s, c)). destruct (m (s, c)) as [r [s' c']]; cbn [fst snd] in *. eauto.
  - intros s r s' (r1 & c' & R & ->). destruct (H _ _ _ R) as (RS & X). split; auto. unfold FsCore.runc.
    destruct (m (s, c)) as [r0 [s0 c0]]. destruct X as [X|[X Y]]; [left; congruence|]. right. split; [exists c'; now rewrite X|exact Y].
Qed.
Lemma flt_finish {A} bad (m : MC A) F c : fc bad m F -> fs_ bad (FsCore.finish m c) (finish F c).
Proof.
  intros (W & I & H). split; [now apply ws_finish|]. split.
  - intros s. unfold FsCore.finish, finish. specialize (I (s, c)). destruct (m (s, c)) as [r [s' c']]; cbn [fst snd] in *. eauto.
  - intros s r s' (c' & R). destruct (H _ _ _ R) as (RS & X). split; auto. unfold FsCore.finish.
    destruct (m (s, c)) as [r0 [s0 c0]]. destruct X as [X|X]; [left; congruence|right; exact X].
Qed.
Definition runm0 {A} (m : MC A) (c : cin) : M st cin := fun s => match m (s, c) with (Ok _, (s', c')) => (Ok c', s') | (Err e, (s', _)) => (Err e, s') end.
Lemma flt_runm {A} (m : MC A) F c : fc std m F -> fs_ std (runm0 m c) (runm F c).
Proof.
  intros (W & I & H). split; [|split].
  - intros s. unfold runm0. specialize (W (s, c)). cbn in W |- *. destruct (m (s, c)) as [[|] [s' c']]; exact W.
  - intros s. unfold runm0, runm. specialize (I (s, c)). destruct (m (s, c)) as [[|] [s' c']]; cbn [fst snd] in *; eauto.
  - intros s r s' (r1 & c' & R & ->). destruct (H _ _ _ R) as (RS & X). split; auto. unfold runm0.
    destruct X as [X|[X Y]]; [left; rewrite X; destruct r1; auto|]. right. split; [rewrite X; reflexivity|].
    destruct (m (s, c)) as [[|] [s0 c0]]; exact Y.
Qed.
Definition runp0 {A} (m : MP A) (c : cin * option cin) : M st A := fun s => let '(r, (s', _)) := m (s, c) in (r, s').
Lemma flt_runp {A} bad (m : MP A) F c : fc bad m F -> fs_ bad (runp0 m c) (runp F c).
Proof.
  intros (W & I & H). split; [|split].
  - intros s. unfold runp0. specialize (W (s, c)). cbn in W |- *. destruct (m (s, c)) as [? [s' c']]; exact W.
  - intros s. unfold runp0, runp. specialize (I (s, c)). destruct (m (s, c)) as [r [s' c']]; cbn [fst snd] in *. eauto.
  - intros s r s' (c' & R). destruct (H _ _ _ R) as (RS & X). split; auto. unfold runp0.
    destruct (m (s, c)) as [r0 [s0 c0]]. destruct X as [X|X]; [left; congruence|right; exact X].
Qed.
Lemma flt_getc bad : fc bad FsInode.getc getc. Proof. apply flt_pure; [apply wc_getc|reflexivity]. Qed.
Lemma flt_modc bad f : fc bad (FsInode.modc f) (modc f). Proof. apply flt_pure; [apply wc_modc|reflexivity]. Qed.
Lemma flt_iset bad f : fc bad (FsInode.iset f) (iset f).
Proof. apply flt_pure; [apply wc_iset|]. intros [s c]. unfold FsInode.iset. cbn. destruct (c_dirty c); reflexivity. Qed.

Lemma bind_getc {A} (k : cin -> MC A) s c : FsState.bind FsInode.getc k (s, c) = k c (s, c). Proof. reflexivity. Qed.
Create HintDb flt.
Ltac bside := first [reflexivity | eexists; reflexivity | solve [auto]].
Ltac fstep :=
  match goal with
  | |- flt _ _ (FsState.ret _) _ => apply flt_ret
  | |- flt _ _ (FsState.fail _) _ => apply flt_fail
  | |- flt _ _ (FsState.lift_res _) _ => apply flt_lift_res
  | |- flt _ _ (FsState.gets _) _ => apply flt_gets
  | |- flt _ _ FsInode.getc _ => apply flt_getc
  | |- flt _ _ (FsInode.modc _) _ => apply flt_modc
  | |- flt _ _ (FsInode.iset _) _ => apply flt_iset
  | |- flt _ _ (FsState.critical _) _ => apply flt_critical
  | |- flt _ _ (FsState.bind (FsState.attempt _) _) _ => apply flt_bind_attempt; [| |intros]
  | |- flt _ _ (FsState.bind _ _) _ => apply flt_bind; [bside| |intros]
  | |- flt _ _ (FsState.critical_assert _) _ => apply flt_cassert
  | |- flt _ _ (FsData.critical_assert_c _) _ => apply flt_cassert_c
  | |- flt _ _ (FsInode.lift _) _ => apply flt_lift
  | |- flt _ _ (FsDir.liftp _) _ => apply flt_liftp
  | |- flt _ _ (FsDir.onsrc _) _ => apply flt_onsrc
  | |- flt _ _ (FsDir.ondst _) _ => apply flt_ondst
  | |- flt _ _ (FsCore.finish _ _) _ => apply flt_finish
  | |- flt _ _ (runm0 _ _) _ => apply flt_runm
  | |- flt _ _ (FsState.loop _ _ _) _ => apply flt_loop; intros
  | |- flt _ _ (FsState.modify (dk_write _ _)) _ => apply flt_modify; [wall|reflexivity]
  | |- flt _ _ (FsState.modify (dk_dirty _)) _ => apply flt_modify; [wall|reflexivity]
  | |- flt _ _ (FsState.modify (discard_block ?b)) _ => apply flt_modify; [wall|intros ?s; unfold discard_block; destruct (com s b); reflexivity]
  | |- flt _ _ (FsState.modify (fun s => set_w _ s)) _ => apply flt_modify; [wall|reflexivity]
  | |- flt _ _ (match ?x with _ => _ end) _ => destruct x
  | |- flt _ _ _ _ => solve [auto with flt]
  | |- aft _ _ (fail _) => apply aft_fail; bside
  | |- aft _ _ (ret _) => apply aft_ret; bside
  end.
Ltac fall := repeat fstep.

Section All.
Variable g : cfg.
Lemma f_BlockGet w b : fs_ std (FsImap.RedImapBlockGet g w b) (RedImapBlockGet g w b).
Proof. apply flt_io; [apply w_BlockGet|]. intros s. unfold FsImap.RedImapBlockGet. destruct (_ || _); reflexivity. Qed.
Lemma f_State b : fs_ std (FsImap.RedImapBlockState g b) (RedImapBlockState g b).
Proof. apply flt_io; [apply w_State|]. intros s. unfold FsImap.RedImapBlockState. destruct (_ || _); reflexivity. Qed.
Lemma f_IBlockSet b al : fs_ std (FsImap.RedImapIBlockSet b al) (RedImapIBlockSet b al).
Proof.
  apply flt_io.
  - intros s. unfold FsImap.RedImapIBlockSet. destruct (Bool.eqb _ _); [apply wle_ro|apply wle_w].
  - intros s. unfold FsImap.RedImapIBlockSet. destruct (Bool.eqb _ _); reflexivity.
Qed.
Hint Resolve f_BlockGet f_State f_IBlockSet : flt.
Lemma flt_at {S A} (p : S -> st) bad (m : FsState.M S A) F : (forall x, exists m' F', m x = m' x /\ (forall r x', F x r x' <-> F' x r x') /\ flt p bad m' F') -> flt p bad m F.
Proof.
  intros H. split; [|split].
  - intros x. destruct (H x) as (m' & F' & E & EF & W & I & K). rewrite E. apply W.
  - intros x. destruct (H x) as (m' & F' & E & EF & W & I & K). rewrite E. apply EF. apply I.
  - intros x r x' R. destruct (H x) as (m' & F' & E & EF & W & I & K). rewrite E. apply K. apply EF. exact R.
Qed.
Lemma f_BlockSet b al : fs_ std (FsImap.RedImapBlockSet g b al) (RedImapBlockSet g b al).
Proof.
  apply flt_at. intros s. unfold RedImapBlockSet, FsImap.RedImapBlockSet.
  destruct (_ || _) eqn:RG. { eexists (FsState.fail EINVAL), (fail EINVAL). split; [reflexivity|]. split; [reflexivity|]. apply flt_fail. }
  destruct (_ && _). { eexists (FsState.critical EFUBAR), (critical EFUBAR). split; [reflexivity|]. split; [reflexivity|]. apply flt_critical. }
  match goal with |- exists m' F', _ /\ (forall r x', ?FF s r x' <-> _) /\ _ => exists
    (FsState.bind (FsState.attempt (FsImap.RedImapIBlockSet b al)) (fun r =>
     FsState.bind (FsState.modify (set_br true)) (fun _ =>
     match r with
     | Err e => FsState.fail e
     | Ok _ =>
       FsState.bind (if al then FsState.ret tt else FsState.modify (discard_block b)) (fun _ =>
       if FA g <=? b then
         if al then FsState.modify (fun s => set_w (mset_free (m_free (s_w s) - 1) (s_w s)) s)
         else FsState.bind (FsState.critical_assert (FsImap.RedImapBlockGet g false b)) (fun w => 
              if w : bool then FsState.modify (fun s => set_afree (s_afree s + 1) s)
              else FsState.modify (fun s => set_w (mset_free (m_free (s_w s) + 1) (s_w s)) s))
       else FsState.ret tt)
     end))), FF end.
  split; [|split; [reflexivity|]].
  - unfold FsState.bind at 1, FsState.attempt. destruct (FsImap.RedImapIBlockSet b al s) as [[[]|e] s1]; [|reflexivity].
    unfold FsState.bind, FsState.modify, FsState.ret, FsState.critical_assert, FsImap.RedImapBlockGet. rewrite RG.
    destruct al, (FA g <=? b); cbn beta iota zeta; try reflexivity. destruct (com _ b); reflexivity.
  - apply flt_bind_attempt; [apply f_IBlockSet| |intros r].
    + eapply (aft_bind _ (fun r => r = Ok tt)).
      * apply aft_pure; [intros s0; apply wle_br|]. intros s0. cbn. auto.
      * intros e E; discriminate E.
      * intros [] _. apply aft_fail. reflexivity.
    + apply flt_bind; [reflexivity|apply flt_pure; [intros s0; apply wle_br|reflexivity]|intros _].
      destruct r as [[]|e]; [|apply flt_fail].
      apply flt_bind; [reflexivity| |intros _].
      { destruct al; [apply flt_ret|]. apply flt_pure; [intros s0; apply wle_discard|]. intros s0. cbn. unfold discard_block. destruct (com s0 b); reflexivity. }
      destruct (FA g <=? b); [|apply flt_ret]. destruct al; [apply flt_pure; [intros s0; apply wle_w|reflexivity]|].
      apply flt_bind; [reflexivity|apply flt_cassert, f_BlockGet|intros w].
      destruct w; apply flt_pure; try reflexivity; intros s0; [apply wle_afree|apply wle_w].
Qed.
Hint Resolve f_BlockSet : flt.
Lemma f_Alloc : fs_ std (FsImap.RedImapAllocBlock g) (RedImapAllocBlock g).
Proof.
  apply flt_at. intros s. unfold RedImapAllocBlock, FsImap.RedImapAllocBlock.
  destruct (_ =? 0). { eexists (FsState.fail ENOSPC), (fail ENOSPC). split; [reflexivity|]. split; [reflexivity|]. apply flt_fail. }
  destruct (_ || _). { eexists (FsState.fail EINVAL), (fail EINVAL). split; [reflexivity|]. split; [reflexivity|]. apply flt_fail. }
  match goal with |- exists m' F', _ /\ (forall r x', ?FF s r x' <-> _) /\ _ => exists
    (FsState.bind (FsState.gets (find_free g (N.to_nat (NALLOC g)) (m_next (s_w s)))) (fun ob =>
     match ob with
     | Some b => FsState.bind (FsState.modify (fun s => set_w (mset_next (if b + 1 =? BC g then FA g else b + 1) (s_w s)) s)) (fun _ =>
       FsState.bind (FsState.critical_assert (FsImap.RedImapBlockSet g b true)) (fun _ => FsState.ret b))
     | None => FsState.critical EIO
     end)), FF end.
  split; [|split; [reflexivity|]].
  - unfold FsState.bind at 1, FsState.gets. destruct (find_free _ _ _ _); reflexivity.
  - apply flt_bind; [reflexivity|apply flt_gets|intros [b|]]; [|apply flt_critical].
    apply flt_bind; [reflexivity|apply flt_pure; [intros s0; apply wle_w|reflexivity]|intros _].
    apply flt_bind; [reflexivity|apply flt_cassert, f_BlockSet|intros _]. apply flt_ret.
Qed.
Hint Resolve f_Alloc : flt.
Lemma f_BitGet w i k : fs_ std (FsInode.RedInodeBitGet g w i k) (RedInodeBitGet g w i k).
Proof. unfold RedInodeBitGet, FsInode.RedInodeBitGet. fall. Qed.
Lemma f_BitSet i k al : fs_ std (FsInode.InodeBitSet g i k al) (InodeBitSet g i k al).
Proof. unfold InodeBitSet, FsInode.InodeBitSet. fall. Qed.
Hint Resolve f_BitGet f_BitSet : flt.
Lemma f_Cur i : fs_ std (FsInode.InodeGetCurrentCopy g i) (InodeGetCurrentCopy g i).
Proof. unfold InodeGetCurrentCopy, FsInode.InodeGetCurrentCopy. fall. Qed.
Lemma f_Wr i : fs_ std (FsInode.InodeGetWriteableCopy g i) (InodeGetWriteableCopy g i).
Proof. unfold InodeGetWriteableCopy, FsInode.InodeGetWriteableCopy. fall. Qed.
Lemma f_IsBr i : fs_ std (FsInode.InodeIsBranched g i) (InodeIsBranched g i).
Proof. unfold InodeIsBranched, FsInode.InodeIsBranched. fall. Qed.
Lemma f_IsFree i : fs_ std (FsInode.RedInodeIsFree g i) (RedInodeIsFree g i).
Proof. unfold RedInodeIsFree, FsInode.RedInodeIsFree. fall. Qed.
Hint Resolve f_Cur f_Wr f_IsBr f_IsFree : flt.
Lemma f_ffi n i : fs_ std (FsInode.find_free_inode g n i) (find_free_inode g n i).
Proof. revert i. induction n; intros i; cbn [find_free_inode FsInode.find_free_inode]; fall. Qed.
Hint Resolve f_ffi : flt.
Lemma f_FindFree : fs_ std (FsInode.InodeFindFree g) (InodeFindFree g).
Proof.
  apply flt_at. intros s. unfold InodeFindFree, FsInode.InodeFindFree. destruct (_ =? 0).
  - eexists (FsState.fail ENFILE), (fail ENFILE). split; [reflexivity|]. split; [reflexivity|]. apply flt_fail.
  - eexists _, _. split; [reflexivity|]. split; [reflexivity|]. apply f_ffi.
Qed.
Lemma f_get_inode b : fs_ std (FsInode.get_inode b) (get_inode b).
Proof. apply flt_io; [apply w_get_inode|]. intros s. unfold FsInode.get_inode. destruct (dk s b); reflexivity. Qed.
Hint Resolve f_FindFree f_get_inode : flt.
Lemma f_Branch : fc std (FsInode.RedInodeBranch g) (RedInodeBranch g).
Proof.
  apply (flt_eq _ _ _ (FsState.bind FsInode.getc (fun c =>
    if negb (CINODE_IS_MOUNTED g c) then FsState.fail EINVAL
    else if negb (c_br c) then
      FsState.bind (FsInode.lift (FsState.critical_assert (FsInode.InodeGetWriteableCopy g (c_ino c)))) (fun w =>
      let nb := InodeBlock g (c_ino c) w in
      FsState.bind (fun sc => (Ok tt, (dk_write nb (BInode (c_i (snd sc))) (fst sc),
                  cset_buf (c_ino c) true nb (c_i (snd sc)) true true (c_dir (snd sc)) (snd sc)))) (fun _ =>
      FsState.bind (FsInode.lift (FsState.critical_assert (FsInode.InodeBitSet g (c_ino c) (1 - w) false))) (fun _ =>
      FsInode.lift (FsState.critical_assert (FsInode.InodeBitSet g (c_ino c) w true)))))
    else fun sc => (Ok tt, (dk_write (c_blk c) (BInode (c_i c)) (fst sc),
                cset_buf (c_ino c) true (c_blk c) (c_i c) true true (c_dir c) c))))).
  - intros [s c]. unfold FsInode.RedInodeBranch. rewrite bind_getc. cbn [snd]. destruct (negb (CINODE_IS_MOUNTED g c)); [reflexivity|].
    destruct (negb (c_br c)); reflexivity.
  - unfold RedInodeBranch. cbv zeta. fall; (apply flt_pure; [intros [s1 c1]; apply wle_write|reflexivity]).
Qed.
Hint Resolve f_Branch : flt.
Lemma f_Mount i ty br : fs_ std (FsInode.RedInodeMount g i ty br) (RedInodeMount g i ty br).
Proof.
  apply (flt_eq _ _ _ (if negb (INODE_IS_VALID g i) then FsState.fail EBADF else
    FsState.bind (FsInode.InodeGetCurrentCopy g i) (fun w =>
    FsState.bind (FsInode.get_inode (InodeBlock g i w)) (fun io =>
    FsState.bind (FsInode.InodeIsBranched g i) (fun br0 =>
    match i_dir io, ty with
    | false, FTYPE_DIR => FsState.fail ENOTDIR
    | true, FTYPE_FILE => FsState.fail EISDIR
    | _, _ => let c := cset_buf i true (InodeBlock g i w) io br0 false (i_dir io) (cin0 i) in
      if br then runm0 (FsInode.RedInodeBranch g) c else FsState.ret c
    end))))).
  - intros s. unfold FsInode.RedInodeMount. destruct (negb (INODE_IS_VALID g i)); reflexivity.
  - unfold RedInodeMount. cbv zeta. fall.
Qed.
Hint Resolve f_Mount : flt.
Lemma f_Create i pi d : fs_ std (FsInode.RedInodeCreate g i pi d) (RedInodeCreate g i pi d).
Proof.
  apply flt_at. intros s. unfold RedInodeCreate, FsInode.RedInodeCreate. destruct (_ && _).
  - eexists (FsState.fail EINVAL), (fail EINVAL). split; [reflexivity|]. split; [reflexivity|]. apply flt_fail.
  - cbv zeta. eexists _, _. split; [reflexivity|]. split; [reflexivity|]. fall.
Qed.
Hint Resolve f_Create : flt.
Lemma f_Free : fc std (FsInode.RedInodeFree g) (RedInodeFree g).
Proof.
  apply (flt_eq _ _ _ (FsState.bind FsInode.getc (fun c =>
    if negb (CINODE_IS_MOUNTED g c) then FsState.fail EINVAL else
    FsState.bind (FsInode.modc (fun c => cset_buf 0 false 0 (c_i c) (c_br c) (c_dirty c) (c_dir c) c)) (fun _ =>
    FsInode.lift (
      FsState.bind (FsState.modify (discard_block (c_blk c))) (fun _ =>
      FsState.bind (FsInode.RedInodeBitGet g true (c_ino c) 0) (fun a =>
      FsState.bind (FsInode.RedInodeBitGet g true (c_ino c) 1) (fun b =>
      FsState.bind (if a : bool then (if b : bool then FsState.critical EFUBAR else FsInode.InodeBitSet g (c_ino c) 0 false)
       else if negb b then FsState.critical EBADF else FsInode.InodeBitSet g (c_ino c) 1 false) (fun _ =>
      FsState.bind (FsState.gets (fun s => m_freei (s_w s))) (fun f =>
      if ICNT g <=? f then FsState.critical EFUBAR
      else FsState.modify (fun s => set_w (mset_freei (f + 1) (s_w s)) s))))))))))).
  - intros [s c]. unfold FsInode.RedInodeFree. rewrite bind_getc. cbn [snd fst]. destruct (negb (CINODE_IS_MOUNTED g c)); [reflexivity|].
    reflexivity.
  - unfold RedInodeFree. fall.
Qed.
Hint Resolve f_Free : flt.
Lemma f_gi b : fs_ std (FsData.get_indir b) (get_indir b).
Proof. apply flt_io; [apply w_gi|]. intros s. unfold FsData.get_indir. destruct (dk s b); reflexivity. Qed.
Hint Resolve f_gi : flt.
Lemma f_gd b : fs_ std (FsData.get_dindir b) (get_dindir b).
Proof. apply flt_io; [apply w_gd|]. intros s. unfold FsData.get_dindir. destruct (dk s b); reflexivity. Qed.
Hint Resolve f_gd : flt.
Lemma f_gk k b : fs_ std (FsData.get_kind g k b) (get_kind g k b).
Proof. apply flt_io; [apply w_gk|]. intros s. unfold FsData.get_kind. destruct k, (dk s b); reflexivity. Qed.
Hint Resolve f_gk : flt.
Lemma f_Seek l : fc std (FsData.SeekInode g l) (SeekInode g l).
Proof. unfold SeekInode, FsData.SeekInode. fall. Qed.
Hint Resolve f_Seek : flt.
Lemma f_SeekRead l : fc std (FsData.RedInodeDataSeekAndRead g l) (RedInodeDataSeekAndRead g l).
Proof. unfold RedInodeDataSeekAndRead, FsData.RedInodeDataSeekAndRead. fall. Qed.
Hint Resolve f_SeekRead : flt.
Lemma f_isnew b : fs_ std (FsData.is_new g b) (is_new g b).
Proof. unfold is_new, FsData.is_new. fall. Qed.
Hint Resolve f_isnew : flt.
Lemma f_Cost d : fc std (FsData.BranchBlockCost g d) (BranchBlockCost g d).
Proof. unfold BranchBlockCost, FsData.BranchBlockCost. fall. Qed.
Hint Resolve f_Cost : flt.
Lemma f_One b bf k : fs_ std (FsData.BranchOneBlock g b bf k) (BranchOneBlock g b bf k).
Proof. unfold BranchOneBlock, FsData.BranchOneBlock. fall. Qed.
Hint Resolve f_One : flt.
Lemma f_nset b k v : fs_ std (FsData.node_set b k v) (node_set b k v).
Proof. apply flt_io; [apply w_nset|]. intros s. unfold FsData.node_set. destruct (dk s b); reflexivity. Qed.
Hint Resolve f_nset : flt.
Lemma f_nown b k : fs_ std (FsData.node_owner b k) (node_owner b k).
Proof. apply flt_io; [apply w_nown|]. intros s. unfold FsData.node_owner. destruct (dk s b); reflexivity. Qed.
Hint Resolve f_nown : flt.
Lemma f_BranchBlock d f : fc std (FsData.BranchBlock g d f) (BranchBlock g d f).
Proof. unfold BranchBlock, FsData.BranchBlock. fall. Qed.
Hint Resolve f_BranchBlock : flt.
Lemma f_dset b f : fs_ std (FsData.data_set g b f) (data_set g b f).
Proof. apply flt_io; [apply w_dset|]. intros s. reflexivity. Qed.
Hint Resolve f_dset : flt.
Lemma f_Expand : fc std (FsData.ExpandPrepare g) (ExpandPrepare g).
Proof. unfold ExpandPrepare, FsData.ExpandPrepare. fall. Qed.
Hint Resolve f_Expand : flt.
Lemma f_TDB b cl Cl pr : fc std cl Cl -> fc std (FsData.TruncDataBlock g b cl pr) (TruncDataBlock g b Cl pr).
Proof. intros. unfold TruncDataBlock, FsData.TruncDataBlock. fall. Qed.
Lemma f_TI : fc std (FsData.TruncIndir g) (TruncIndir g).
Proof. unfold TruncIndir, FsData.TruncIndir. fall; apply f_TDB; fall. Qed.
Hint Resolve f_TI : flt.
Lemma f_tdl n k fb l : fc std (FsData.trunc_dindir_loop g n k fb l) (trunc_dindir_loop g n k fb l).
Proof. revert k l. induction n; intros k l; cbn [trunc_dindir_loop FsData.trunc_dindir_loop]; fall. Qed.
Hint Resolve f_tdl : flt.
Lemma f_TD : fc std (FsData.TruncDindir g) (TruncDindir g).
Proof. unfold TruncDindir, FsData.TruncDindir. fall. Qed.
Hint Resolve f_TD : flt.
Lemma f_shd l : fc std (FsData.shrink_direct g l) (shrink_direct g l).
Proof. unfold shrink_direct, FsData.shrink_direct. fall. apply f_TDB. fall. Qed.
Hint Resolve f_shd : flt.
Lemma f_shi f l : fc std (FsData.shrink_indir g f l) (shrink_indir g f l).
Proof. revert l. induction f; intros l; cbn [shrink_indir FsData.shrink_indir]; fall. Qed.
Hint Resolve f_shi : flt.
Lemma f_shdi f l : fc std (FsData.shrink_dindir g f l) (shrink_dindir g f l).
Proof. revert l. induction f; intros l; cbn [shrink_dindir FsData.shrink_dindir]; fall. Qed.
Hint Resolve f_shdi : flt.
Lemma f_Shrink z : fc std (FsData.Shrink g z) (Shrink g z).
Proof. unfold Shrink, FsData.Shrink. fall. Qed.
Hint Resolve f_Shrink : flt.
Lemma f_Trunc z : fc std (FsData.RedInodeDataTruncate g z) (RedInodeDataTruncate g z).
Proof. unfold RedInodeDataTruncate, FsData.RedInodeDataTruncate. fall. Qed.
Hint Resolve f_Trunc : flt.
Lemma f_RU a b : fc std (FsData.ReadUnaligned g a b) (ReadUnaligned g a b).
Proof. unfold ReadUnaligned, FsData.ReadUnaligned. fall. Qed.
Hint Resolve f_RU : flt.
Lemma f_el n l f r : fc std (FsData.extent_loop g n l f r) (extent_loop g n l f r).
Proof. revert r. induction n; intros r; cbn [extent_loop FsData.extent_loop]; fall. Qed.
Hint Resolve f_el : flt.
Lemma f_GE l m : fc std (FsData.GetExtent g l m) (GetExtent g l m).
Proof. unfold GetExtent, FsData.GetExtent. fall. Qed.
Hint Resolve f_GE : flt.
Lemma f_ral f l c i o : fc std (FsData.read_aligned_loop g f l c i o) (read_aligned_loop g f l c i o).
Proof. revert i o. induction f; intros i o; cbn [read_aligned_loop FsData.read_aligned_loop]; fall. Qed.
Hint Resolve f_ral : flt.
Lemma f_RA l c : fc std (FsData.ReadAligned g l c) (ReadAligned g l c).
Proof. unfold ReadAligned, FsData.ReadAligned. fall. Qed.
Hint Resolve f_RA : flt.
Lemma f_Read a b : fc std (FsData.RedInodeDataRead g a b) (RedInodeDataRead g a b).
Proof. unfold RedInodeDataRead, FsData.RedInodeDataRead. fall. Qed.
Hint Resolve f_Read : flt.
Lemma f_WU a b s : fc std (FsData.WriteUnaligned g a b s) (WriteUnaligned g a b s).
Proof. unfold WriteUnaligned, FsData.WriteUnaligned. fall. Qed.
Hint Resolve f_WU : flt.
Definition seb (r : res (option errno * N * N * N)) : Prop := exists a b c, r = Ok (Some EIO, a, b, c).
Lemma f_eb n l i x es el : fc seb (FsData.extent_branch g n l i x es el) (extent_branch g n l i x es el).
Proof.
  revert i x es el. induction n; intros i x es el; cbn [extent_branch FsData.extent_branch]; [apply flt_ret|].
  eapply (flt_bindG _ satt).
  - destruct (x =? 0); [|apply flt_ret]. apply flt_bind_attempt; [apply f_Seek|apply aft_ret; reflexivity|].
    intros [[]|e]; [apply flt_attempt, f_BranchBlock|]. destruct e; first [apply flt_attempt, f_BranchBlock|apply flt_ret].
  - intros e E; discriminate E.
  - intros a E. unfold satt in E. injection E as ->. apply aft_ret. unfold seb; eauto.
  - intros [[]|e]; [|apply flt_ret]. eapply (flt_bindG _ (fun _ => False)); [apply flt_getc|intros e []|intros a []|].
    intros c. fall.
Qed.
Definition swal (r : res (option errno * N)) : Prop := r = Err EIO \/ exists i, r = Ok (Some EIO, i).
Lemma f_wr n b src : fs_ std (FsState.modify (io_write g n b src)) (io_wr g n b src).
Proof.
  assert (IR : forall s, s_res (io_write g n b src s) = s_res s).
  { revert b src. induction n as [|n IH]; intros b src s; cbn [io_write]; [reflexivity|]. rewrite IH. reflexivity. }
  split; [intros s; apply w_io|]. split.
  - intros s. left. auto.
  - intros s r s' [[-> ->]|[-> (dk' & ->)]]; cbn.
    + split; auto.
    + split; [apply IR|]. right. split; [reflexivity|]. split; [reflexivity|]. split; [|auto]. destruct (w_io g n b src s) as (_ & _ & E & _). exact E.
Qed.
Lemma f_wal f l c i nx src : fc swal (FsData.write_aligned_loop g f l c i nx src) (write_aligned_loop g f l c i nx src).
Proof.
  revert i nx. induction f; intros i nx; cbn [write_aligned_loop FsData.write_aligned_loop]; [fall|].
  destruct (i <? c); [|apply flt_ret]. eapply (flt_bindG _ seb); [apply f_eb| | |].
  - intros e (a & b & d & E); discriminate E.
  - intros a (x & y & z & E). injection E as ->. apply aft_ret. right. eauto.
  - intros [[[re nx'] es] el].
    assert (G : forall full, fc swal
      (if io_range g es el then FsState.bind (FsInode.lift (FsState.modify (io_write g (N.to_nat el) es (fun x => src (i * BS g + x))))) (fun _ =>
         if full : bool then FsState.ret (Some ENOSPC, i + el) else FsData.write_aligned_loop g f l c (i + el) nx' src) else FsState.ret (Some EINVAL, i))
      (if io_range g es el then bind (lift (io_wr g (N.to_nat el) es (fun x => src (i * BS g + x)))) (fun _ =>
         if full : bool then ret (Some ENOSPC, i + el) else write_aligned_loop g f l c (i + el) nx' src) else ret (Some EINVAL, i))).
    { intros full. destruct (io_range g es el); [|apply flt_ret]. apply flt_bind; [left; reflexivity|apply flt_lift, f_wr|intros _]. destruct full; [apply flt_ret|apply IHf]. }
    cbv zeta. destruct re as [e|]; [destruct e|]; try apply flt_ret; try exact (G false). destruct (0 <? el); [exact (G true)|apply flt_ret].
Qed.
Lemma f_WA l c src : fc std (FsData.WriteAligned g l c src) (WriteAligned g l c src).
Proof.
  unfold WriteAligned, FsData.WriteAligned. eapply (flt_bindG _ swal); [apply f_wal| | |].
  - intros e [E|[x E]]; [unfold std; congruence|discriminate E].
  - intros a [E|[x E]]; [discriminate E|]. injection E as ->. apply aft_fail. reflexivity.
  - intros [re idx]. fall.
Qed.
Hint Resolve f_WA : flt.
Lemma f_Write a b src : fc std (FsData.RedInodeDataWrite g a b src) (RedInodeDataWrite g a b src).
Proof. unfold RedInodeDataWrite, FsData.RedInodeDataWrite. fall. Qed.
Hint Resolve f_Write : flt.
Lemma f_Del : fc std (FsData.InodeDelete g) (InodeDelete g).
Proof. unfold InodeDelete, FsData.InodeDelete. fall. Qed.
Hint Resolve f_Del : flt.
Lemma f_LD : fc std (FsData.RedInodeLinkDec g) (RedInodeLinkDec g).
Proof. unfold RedInodeLinkDec, FsData.RedInodeLinkDec. fall. Qed.
Hint Resolve f_LD : flt.
Lemma f_DEW i o nm : fc std (FsDir.DirEntryWrite g i o nm) (DirEntryWrite g i o nm).
Proof. unfold DirEntryWrite, FsDir.DirEntryWrite. fall. Qed.
Hint Resolve f_DEW : flt.
Lemma f_ll f i c nm fr : fc std (FsDir.lookup_loop g f i c nm fr) (lookup_loop g f i c nm fr).
Proof. revert i fr. induction f; intros i fr; cbn [lookup_loop FsDir.lookup_loop]; fall. Qed.
Hint Resolve f_ll : flt.
Lemma f_Lookup nm : fc std (FsDir.RedDirEntryLookup g nm) (RedDirEntryLookup g nm).
Proof. unfold RedDirEntryLookup, FsDir.RedDirEntryLookup. fall. Qed.
Hint Resolve f_Lookup : flt.
Lemma f_DEC nm i : fc std (FsDir.RedDirEntryCreate g nm i) (RedDirEntryCreate g nm i).
Proof. unfold RedDirEntryCreate, FsDir.RedDirEntryCreate. fall. Qed.
Lemma f_bl f t : fc std (FsDir.back_loop g f t) (back_loop g f t).
Proof. revert t. induction f; intros t; cbn [back_loop FsDir.back_loop]; fall. Qed.
Hint Resolve f_DEC f_bl : flt.
Lemma f_DED i : fc std (FsDir.RedDirEntryDelete g i) (RedDirEntryDelete g i).
Proof. unfold RedDirEntryDelete, FsDir.RedDirEntryDelete. fall. Qed.
Lemma f_rl f i c : fc std (FsDir.read_loop g f i c) (read_loop g f i c).
Proof. revert i. induction f; intros i; cbn [read_loop FsDir.read_loop]; fall. Qed.
Hint Resolve f_DED f_rl : flt.
Lemma f_DER i : fc std (FsDir.RedDirEntryRead g i) (RedDirEntryRead g i).
Proof. unfold RedDirEntryRead, FsDir.RedDirEntryRead. fall. Qed.
Lemma f_cyl f a b c : fs_ std (FsDir.cyclic_loop g f a b c) (cyclic_loop g f a b c).
Proof. revert b c. induction f; intros b c; cbn [cyclic_loop FsDir.cyclic_loop]; fall. Qed.
Hint Resolve f_DER f_cyl : flt.
Lemma f_Cyc a c : fs_ std (FsDir.DirCyclicRenameCheck g a c) (DirCyclicRenameCheck g a c).
Proof. unfold DirCyclicRenameCheck, FsDir.DirCyclicRenameCheck. fall. Qed.
Hint Resolve f_Cyc : flt.
Lemma aft_critical {A} (bad : res A -> Prop) e : bad (Err e) -> aft idst bad (critical e).
Proof. intros H. apply aft_pure; [apply ws_critical|]. intros x. split; auto. Qed.
Lemma aft_liftp {A} (bad : res A -> Prop) F : aft idst bad F -> aft (fst : st * _ -> st) bad (liftp F).
Proof. intros H [s c] r [s' c'] (R & E) RO. cbn in *. exact (H _ _ _ R RO). Qed.
Lemma f_Ren a b : fc std (FsDir.RedDirEntryRename g a b) (RedDirEntryRename g a b).
Proof.
  unfold RedDirEntryRename, FsDir.RedDirEntryRename. fall.
  all: try (apply aft_liftp, aft_critical; reflexivity).
  all: apply flt_pure; [intros s; match goal with |- context [FsInode.iset ?f (s, ?c)] => pose proof (wc_iset f (s, c)) as X; destruct (FsInode.iset f (s, c)) as [? [? ?]]; exact X end|].
  all: intros s; unfold FsInode.iset; cbn; match goal with |- context [if ?x then _ else _] => destruct x end; reflexivity.
Qed.
Hint Resolve f_Ren : flt.
End All.
