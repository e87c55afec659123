(** Two paths with the same volume and the same components are interchangeable: every call behaves
    in exactly the same way. *)
From Verif Require Import Base Count FsState FsDir FsSpec FsSpecN FsCoreP2 FsMach FsVolume FsVolumeP FsReach PropFs PropNs Posix PosixSpec PosixWp PosixPath PosixPath2 PosixInv PosixStart.
From Coq Require Import ZArith.
Ltac Zify.zify_post_hook ::= idtac.

(** The paths [p] and [q] select the same volume, are both relative or both not, and have the same
    components (after the volume prefix). *)
Record same_path (pc : pcfg) (p q : str) : Prop := {
  sp_vol : forall n, picks (NV pc) (SEP pc) (prefix pc) p n <-> picks (NV pc) (SEP pc) (prefix pc) q n;
  sp_rel : relative (SEP pc) p <-> relative (SEP pc) q;
  sp_cwd : relative (SEP pc) p -> (forall n, picks (NV pc) (SEP pc) (prefix pc) p n -> prefix pc n = []) -> comps (SEP pc) p = comps (SEP pc) q;
  sp_abs : forall n t t', picks (NV pc) (SEP pc) (prefix pc) p n -> cstr p = prefix pc n ++ t -> cstr q = prefix pc n ++ t' -> comps (SEP pc) t = comps (SEP pc) t' }.
(** The same call, up to the spelling of the paths. *)
Inductive same_call (pc : pcfg) : pcall -> pcall -> Prop :=
| Sc_same c : same_call pc c c
| Sc_mount p q f : same_path pc p q -> same_call pc (PMount p f) (PMount q f)
| Sc_umount p q f : same_path pc p q -> same_call pc (PUmount p f) (PUmount q f)
| Sc_format p q : same_path pc p q -> same_call pc (PFormat p) (PFormat q)
| Sc_transact p q : same_path pc p q -> same_call pc (PTransact p) (PTransact q)
| Sc_rollback p q : same_path pc p q -> same_call pc (PRollback p) (PRollback q)
| Sc_setmask p q m : same_path pc p q -> same_call pc (PSetMask p m) (PSetMask q m)
| Sc_getmask p q : same_path pc p q -> same_call pc (PGetMask p) (PGetMask q)
| Sc_statvfs p q : same_path pc p q -> same_call pc (PStatvfs p) (PStatvfs q)
| Sc_open p q m : same_path pc p q -> same_call pc (POpen p m) (POpen q m)
| Sc_unlink p q : same_path pc p q -> same_call pc (PUnlink p) (PUnlink q)
| Sc_mkdir p q : same_path pc p q -> same_call pc (PMkdir p) (PMkdir q)
| Sc_rmdir p q : same_path pc p q -> same_call pc (PRmdir p) (PRmdir q)
| Sc_rename p q p' q' : same_path pc p q -> same_path pc p' q' -> same_call pc (PRename p p') (PRename q q')
| Sc_link p q p' q' : same_path pc p q -> same_path pc p' q' -> same_call pc (PLink p p') (PLink q q')
| Sc_opendir p q : same_path pc p q -> same_call pc (POpendir p) (POpendir q)
| Sc_chdir p q : same_path pc p q -> same_call pc (PChdir p) (PChdir q).

Definition eqv {A C} (R : A -> C -> Prop) (m : B A) (m' : B C) : Prop := forall s, R (fst (brun m s)) (fst (brun m' s)) /\ snd (brun m s) = snd (brun m' s).
Definition resR {A C} (R : A -> C -> Prop) (r : res A) (r' : res C) : Prop := match r, r' with Ok a, Ok a' => R a a' | Err e, Err e' => e = e' | _, _ => False end.
Lemma brun_bbind {A C} (m : B A) (f : A -> B C) : forall s, brun (bbind m f) s = brun (f (fst (brun m s))) (snd (brun m s)).
Proof. induction m as [a|X l g k IH]; intros s; cbn; auto. Qed.
Lemma brun_bind {A C} (m : PM A) (f : A -> PM C) s : brun (bind m f) s = match fst (brun m s) with Ok a => brun (f a) (snd (brun m s)) | Err e => (Err e, snd (brun m s)) end.
Proof. unfold bind. rewrite brun_bbind. destruct (fst (brun m s)); reflexivity. Qed.
Lemma eqv_catch {A A' C C'} (R : A -> A' -> Prop) (S : C -> C' -> Prop) m m' f f' : eqv (resR R) m m' -> (forall r r', resR R r r' -> eqv S (f r) (f' r')) -> eqv S (bbind m f) (bbind m' f').
Proof. intros H K s. rewrite !brun_bbind. destruct (H s) as [H1 H2]. rewrite H2. apply K; auto. Qed.
Lemma eqv_bind {A A' C C'} (R : A -> A' -> Prop) (S : C -> C' -> Prop) (m : PM A) (m' : PM A') f f' : eqv (resR R) m m' -> (forall a a', R a a' -> eqv (resR S) (f a) (f' a')) -> eqv (resR S) (bind m f) (bind m' f').
Proof. intros H K. eapply eqv_catch; [exact H|]. intros [a|e] [a'|e'] X; cbn in X; try tauto; auto. subst. intros s. cbn. auto. Qed.
Lemma eqv_ret {A C} (R : A -> C -> Prop) a a' : R a a' -> eqv (resR R) (ret a) (ret a').
Proof. intros H s. cbn. auto. Qed.
Lemma eqv_fail {A C} (R : A -> C -> Prop) e : eqv (resR R) (@fail A e) (@fail C e).
Proof. intros s. cbn. auto. Qed.
Lemma eqv_refl {A} (m : PM A) : eqv (resR eq) m m.
Proof. intros s. split; auto. destruct (fst (brun m s)); cbn; auto. Qed.
Lemma eqv_eq {A} (m m' : PM A) s : eqv (resR eq) m m' -> brun m s = brun m' s.
Proof. intros H. destruct (H s) as [H1 H2]. destruct (brun m s) as [[a|e] s1], (brun m' s) as [[a'|e'] s2]; cbn in *; subst; try tauto; congruence. Qed.

Section Same.
Variable pc : pcfg.
Hypothesis PC : pcfg_ok pc.
Set Default Proof Using "PC".
Notation SEP := (SEP pc).
Notation NV := (NV pc).
Notation prefix := (prefix pc).
Notation comps := (comps SEP).

Lemma comps_hd p q : comps p = comps q ->
  (ch (skip_sep pc p) =? 0) = (ch (skip_sep pc q) =? 0) /\
  ((ch (skip_sep pc p) =? 0) = false -> name_of pc (skip_sep pc p) = name_of pc (skip_sep pc q) /\
     comps (skipn (length (name_of pc (skip_sep pc p))) (skip_sep pc p)) = comps (skipn (length (name_of pc (skip_sep pc q))) (skip_sep pc q))).
Proof.
  intros E. destruct (N.eqb_spec (ch (skip_sep pc p)) 0) as [A|A], (N.eqb_spec (ch (skip_sep pc q)) 0) as [B|B].
  - split; auto. discriminate.
  - rewrite (comps_nil pc PC p A), (comps_cons pc PC q B) in E. discriminate.
  - rewrite (comps_nil pc PC q B), (comps_cons pc PC p A) in E. discriminate.
  - rewrite (comps_cons pc PC q B), (comps_cons pc PC p A) in E. split; auto. intros _. injection E as E1 E2. split; auto.
Qed.
Lemma dot_eq p q : name_of pc p = name_of pc q -> IsDot pc p = IsDot pc q /\ IsDotDot pc p = IsDotDot pc q.
Proof.
  intros E. split.
  - destruct (IsDot pc p) eqn:A, (IsDot pc q) eqn:B; auto.
    + apply (is_dot_spec pc PC) in A. rewrite E in A. apply (is_dot_spec pc PC) in A. congruence.
    + apply (is_dot_spec pc PC) in B. rewrite <- E in B. apply (is_dot_spec pc PC) in B. congruence.
  - destruct (IsDotDot pc p) eqn:A, (IsDotDot pc q) eqn:B; auto.
    + apply (is_dotdot_spec pc PC) in A. rewrite E in A. apply (is_dotdot_spec pc PC) in A. congruence.
    + apply (is_dotdot_spec pc PC) in B. rewrite <- E in B. apply (is_dotdot_spec pc PC) in B. congruence.
Qed.
Definition Rw (a b : N * N * str) : Prop := fst a = fst b /\ name_of pc (snd a) = name_of pc (snd b).
Lemma walk_eqv want : forall fuel fuel' p p' last last' i pi, (length p < fuel)%nat -> (length p' < fuel')%nat -> comps p = comps p' ->
  (ch (skip_sep pc p) = 0 -> name_of pc last = name_of pc last') -> eqv (resR Rw) (walk_loop pc fuel p last i pi want) (walk_loop pc fuel' p' last' i pi want).
Proof.
  induction fuel as [|fuel IH]; intros fuel' p p' last last' i pi Hp Hp' E L; [lia|]. destruct fuel' as [|fuel']; [lia|].
  cbn [walk_loop]. destruct (comps_hd p p' E) as [E0 E1]. pose proof (skip_len pc p) as L1. pose proof (skip_len pc p') as L2.
  rewrite <- E0. destruct (ch (skip_sep pc p) =? 0) eqn:Z. { apply eqv_ret. split; auto. cbn. apply L. now apply N.eqb_eq. }
  destruct (E1 eq_refl) as [EN EC]. clear E1. pose proof E0 as E0'. symmetry in E0'. apply N.eqb_neq in Z, E0'.
  set (q := skip_sep pc p) in *. set (q' := skip_sep pc p') in *.
  destruct (dot_eq q q' EN) as [-> D2].
  assert (SK : forall k, (0 < k)%nat -> (length (skipn k q) < fuel)%nat /\ (length (skipn k q') < fuel')%nat).
  { intros k Hk. rewrite !skipn_length. assert (q <> []) by (intros X; rewrite X in Z; now apply Z). assert (q' <> []) by (intros X; rewrite X in E0'; now apply E0').
    destruct q; [congruence|]. destruct q'; [congruence|]. cbn [length] in *. lia. }
  destruct (IsDot pc q') eqn:D1.
  - apply (is_dot_spec pc PC) in D1. rewrite EN, D1 in EC. cbn [length dot1] in EC. destruct (SK 1%nat) as [? ?]; [lia|].
    eapply eqv_bind; [apply eqv_refl|]. intros a a' <-. apply IH; auto.
  - rewrite D2. destruct (IsDotDot pc q') eqn:D3.
    + apply (is_dotdot_spec pc PC) in D3. rewrite EN, D3 in EC. cbn [length dot2] in EC. destruct (SK 2%nat) as [? ?]; [lia|].
      eapply eqv_bind; [apply eqv_refl|]. intros a a' <-. eapply eqv_bind; [apply eqv_refl|]. intros b b' <-. apply IH; auto.
    + pose proof (skip_hd pc PC p Z) as NE. fold q in NE. assert (0 < length (name_of pc q))%nat by (destruct (name_of pc q); [congruence|cbn; lia]).
      destruct (SK _ H) as [S1 S2]. cbv zeta. replace (PathHasMoreComponents pc (skipn (length (name_of pc q)) q)) with (PathHasMoreComponents pc (skipn (length (name_of pc q')) q')).
      2:{ unfold PathHasMoreComponents. f_equal. symmetry. apply comps_hd; auto. }
      rewrite EN in *. eapply eqv_bind; [apply eqv_refl|]. intros b b' <-. apply IH; auto.
Qed.
Lemma PathWalk_eqv cwd p p' want : comps p = comps p' -> eqv (resR Rw) (PathWalk pc cwd p want) (PathWalk pc cwd p' want).
Proof.
  intros E. unfold PathWalk. eapply eqv_bind; [apply eqv_refl|]. intros _ _ _. eapply eqv_bind; [apply eqv_refl|]. intros b b' <-. apply walk_eqv; auto; try lia.
  intros Z. pose proof (comps_nil pc PC p Z) as Z1. rewrite E in Z1.
  assert (NN : forall x, comps x = [] -> name_of pc x = []).
  { intros x Hx. destruct (N.eq_dec (ch (skip_sep pc x)) 0) as [Y|Y]; [|rewrite (comps_cons pc PC x Y) in Hx; discriminate].
    destruct x as [|c x]; [auto|]. cbn in *. destruct (N.eqb_spec c SEP) as [->|]; [now rewrite orb_true_r|]. cbn in Y. rewrite Y. reflexivity. }
  rewrite !NN; auto. now rewrite E.
Qed.
Lemma lookup_eqv cwd p p' : comps p = comps p' -> eqv (resR eq) (RedPathLookup pc cwd p) (RedPathLookup pc cwd p').
Proof. intros E. unfold RedPathLookup. eapply eqv_bind; [now apply PathWalk_eqv|]. intros [[a b] c] [[a' b'] c'] [H _]. cbn in H. injection H as <- <-. now apply eqv_ret. Qed.
Lemma toname_eqv cwd p p' e : comps p = comps p' -> eqv (resR eq) (RedPathToName pc cwd p e) (RedPathToName pc cwd p' e).
Proof.
  intros E. unfold RedPathToName. eapply eqv_bind; [now apply PathWalk_eqv|]. intros [[a b] c] [[a' b'] c'] [H1 H2]. cbn in H1, H2. injection H1 as <- <-.
  unfold IsDotOrDotDot. destruct (dot_eq _ _ H2) as [-> ->]. eapply eqv_bind; [apply eqv_refl|]. intros _ _ _. eapply eqv_bind; [apply eqv_refl|]. intros _ _ _. apply eqv_ret. now rewrite H2.
Qed.
Lemma pick_lookup p n : prefix_lookup pc p = Some n <-> picks NV SEP prefix p n.
Proof.
  pose proof (prefix_lookup_spec pc PC p) as H. split; [intros E; now rewrite E in H|]. intros P. destruct (prefix_lookup pc p) as [m|].
  - f_equal. eapply (picks_fun pc PC); eauto.
  - exfalso. destruct P as (A & [(B & C & _)|(B & _)]); destruct (H n A) as [X Y]; tauto.
Qed.
Lemma lookup_eq p q : same_path pc p q -> prefix_lookup pc p = prefix_lookup pc q.
Proof.
  intros SP. destruct (prefix_lookup pc p) as [n|] eqn:E.
  - apply pick_lookup in E. apply (sp_vol _ _ _ SP) in E. apply pick_lookup in E. auto.
  - destruct (prefix_lookup pc q) as [n|] eqn:E'; auto. apply pick_lookup, (sp_vol _ _ _ SP), pick_lookup in E'. congruence.
Qed.
Definition Rs (a b : N * N * str) : Prop := fst a = fst b /\ comps (snd a) = comps (snd b).
Lemma rel_eq p q : same_path pc p q -> (negb (ch p =? SEP) && negb (ch p =? 0)) = (negb (ch q =? SEP) && negb (ch q =? 0)).
Proof.
  intros SP. pose proof (relative_spec pc PC p) as A. pose proof (relative_spec pc PC q) as B. pose proof (sp_rel _ _ _ SP) as R.
  destruct (negb (ch p =? SEP) && negb (ch p =? 0)), (negb (ch q =? SEP) && negb (ch q =? 0)); auto; [symmetry|]; tauto.
Qed.
Lemma local_eq p q n : same_path pc p q -> prefix_lookup pc p = Some n -> comps (skipn (strlen (prefix n)) p) = comps (skipn (strlen (prefix n)) q).
Proof.
  intros SP E. pose proof E as E'. rewrite (lookup_eq _ _ SP) in E'. apply pick_lookup in E, E'.
  rewrite <- (comps_cstr pc (cstr (skipn _ p)) _ (cstr_idem _)), <- (comps_cstr pc (cstr (skipn _ q)) _ (cstr_idem _)).
  apply (sp_abs _ _ _ SP n); auto; apply (pick_local pc PC); auto.
Qed.
Lemma prefix_eqv p q : same_path pc p q -> eqv (resR eq) (RedPathVolumePrefixLookup pc p) (RedPathVolumePrefixLookup pc q).
Proof. intros SP. unfold RedPathVolumePrefixLookup. rewrite (lookup_eq _ _ SP). apply eqv_refl. Qed.
Lemma start_eqv tid p q : same_path pc p q -> eqv (resR Rs) (PathStartingPoint pc tid p) (PathStartingPoint pc tid q).
Proof.
  intros SP. unfold PathStartingPoint.
  assert (RL : forall n s, fst (brun (RedPathVolumePrefixLookup pc p) s) = Ok n -> prefix_lookup pc p = Some n).
  { intros n s. unfold RedPathVolumePrefixLookup. destruct (prefix_lookup pc p) as [m|] eqn:E; [|discriminate]. pose proof E as E2. apply pick_lookup in E2. destruct E2 as [E2 _].
    unfold RedCoreVolSetCurrent. rewrite (proj2 (N.ltb_lt _ _) E2). cbn. congruence. }
  assert (RE : forall s e, fst (brun (RedPathVolumePrefixLookup pc p) s) = Err e -> prefix_lookup pc p = None).
  { intros s e. unfold RedPathVolumePrefixLookup. destruct (prefix_lookup pc p) as [m|] eqn:E; [|auto]. pose proof E as E2. apply pick_lookup in E2. destruct E2 as [E2 _].
    unfold RedCoreVolSetCurrent. rewrite (proj2 (N.ltb_lt _ _) E2). discriminate. }
  intros s. unfold catch. rewrite !brun_bbind. destruct (prefix_eqv p q SP s) as [H1 H2]. rewrite <- H2. specialize (RL) with (s := s). specialize (RE s).
  destruct (fst (brun (RedPathVolumePrefixLookup pc p) s)) as [n|e], (fst (brun (RedPathVolumePrefixLookup pc q) s)) as [n'|e']; cbn in H1; try tauto; subst.
  - specialize (RL _ eq_refl). generalize (snd (brun (RedPathVolumePrefixLookup pc p) s)). clear s H2 RE. cbv zeta. rewrite <- !andb_assoc. rewrite <- (rel_eq _ _ SP).
    destruct (Nat.eqb_spec (strlen (prefix n')) 0) as [EL|EL]; cbn [andb].
    + destruct (negb (ch p =? SEP) && negb (ch p =? 0)) eqn:ER.
      * change (eqv (resR Rs) (bind (CwdGet pc tid) (fun c => bind (RedCoreVolSetCurrent pc (fst c)) (fun _ => ret (fst c, snd c, p)))) (bind (CwdGet pc tid) (fun c => bind (RedCoreVolSetCurrent pc (fst c)) (fun _ => ret (fst c, snd c, q))))).
        eapply eqv_bind; [apply eqv_refl|]. intros c c' <-. eapply eqv_bind; [apply eqv_refl|]. intros _ _ _. apply eqv_ret. split; auto. cbn. apply (sp_cwd _ _ _ SP); [now apply (relative_spec pc PC)|].
        intros m PM. apply pick_lookup in PM. rewrite RL in PM. injection PM as <-. apply pick_lookup in RL. rewrite (strlen_nz _ (ok_pre _ PC n' (proj1 RL))) in EL. destruct (prefix n'); [auto|discriminate].
      * apply eqv_ret. split; auto. cbn [snd]. apply local_eq; auto.
    + apply eqv_ret. split; auto. cbn [snd]. apply local_eq; auto.
  - specialize (RE _ eq_refl). generalize (snd (brun (RedPathVolumePrefixLookup pc p) s)). clear s H2 RL. cbv zeta. rewrite <- !andb_assoc. rewrite <- (rel_eq _ _ SP).
    destruct (errno_eqb e' ENOENT && (negb (ch p =? SEP) && negb (ch p =? 0))) eqn:ER.
    + apply andb_true_iff in ER as [_ ER].
      change (eqv (resR Rs) (bind (CwdGet pc tid) (fun c => bind (RedCoreVolSetCurrent pc (fst c)) (fun _ => ret (fst c, snd c, p)))) (bind (CwdGet pc tid) (fun c => bind (RedCoreVolSetCurrent pc (fst c)) (fun _ => ret (fst c, snd c, q))))).
      eapply eqv_bind; [apply eqv_refl|]. intros c c' <-. eapply eqv_bind; [apply eqv_refl|]. intros _ _ _. apply eqv_ret. split; auto. cbn. apply (sp_cwd _ _ _ SP); [now apply (relative_spec pc PC)|].
      intros m PM. apply pick_lookup in PM. congruence.
    + apply (eqv_fail Rs).
Qed.
Lemma vol_eqv p q : same_path pc p q -> eqv (resR eq) (RedPathVolumeLookup pc p) (RedPathVolumeLookup pc q).
Proof.
  intros SP. unfold RedPathVolumeLookup, RedPathVolumePrefixLookup. rewrite <- (lookup_eq _ _ SP). destruct (prefix_lookup pc p) as [n|] eqn:E; [|apply eqv_fail].
  assert (Hn : n < NV) by (apply pick_lookup in E; apply E).
  assert (X : forall t, ((ch t =? 0) || IsRootDir pc t) = (ch (skip_sep pc t) =? 0)).
  { intros t. unfold IsRootDir. destruct t as [|c t']; [reflexivity|]. cbn [ch skip_sep]. destruct (N.eqb_spec c SEP) as [->|NE]; cbn [andb ch]; [|now rewrite orb_false_r].
    destruct (N.eqb_spec SEP 0) as [Y|Y]; [now destruct (ok_sep _ PC)|]. reflexivity. }
  assert (CE : forall s, brun (bind (RedCoreVolSetCurrent pc n) (fun _ => ret n)) s = (Ok n, set_cur n s)).
  { intros s. unfold RedCoreVolSetCurrent. rewrite (proj2 (N.ltb_lt _ _) Hn). reflexivity. }
  intros s. rewrite !(brun_bind (bind (RedCoreVolSetCurrent pc n) (fun _ => ret n))), !CE. cbn [fst snd]. cbv zeta. rewrite !X, (proj1 (comps_hd _ _ (local_eq p q n SP E))).
  apply (eqv_refl (bind (check (ch (skip_sep pc (skipn (strlen (prefix n)) q)) =? 0) ENOENT) (fun _ => ret n)) (set_cur n s)).
Qed.
Ltac ev := match goal with
  | |- eqv (resR eq) ?m ?m => apply eqv_refl
  | |- eqv _ (bind (PathStartingPoint _ _ _) _) _ => eapply eqv_bind; [now apply start_eqv|]; intros [[? ?] ?] [[? ?] ?] [? ?]; cbn [fst snd] in *; match goal with H : (_, _) = (_, _) |- _ => injection H as <- <- end
  | |- eqv _ (bind (RedPathVolumeLookup _ _) _) _ => eapply eqv_bind; [now apply vol_eqv|]; intros ? ? <-
  | |- eqv _ (bind (RedPathLookup _ _ _) _) _ => eapply eqv_bind; [now apply lookup_eqv|]; intros ? ? <-
  | |- eqv _ (bind (RedPathToName _ _ _ _) _) _ => eapply eqv_bind; [now apply toname_eqv|]; intros ? ? <-
  | |- eqv _ (bind ?m _) (bind ?m _) => eapply eqv_bind; [apply eqv_refl|]; intros ? ? <-
  end.
Lemma open_eqv tid p q m ty : same_path pc p q -> eqv (resR eq) (FildesOpen pc tid p m ty) (FildesOpen pc tid q m ty).
Proof.
  intros SP. unfold FildesOpen. do 4 ev. apply (eqv_bind eq); [destruct (has m O_CREAT); repeat ev|]. intros ? ? <-. apply eqv_refl.
Qed.
Lemma unlink_eqv tid p q ty : same_path pc p q -> eqv (resR eq) (UnlinkSub pc tid p ty) (UnlinkSub pc tid q ty).
Proof. intros SP. unfold UnlinkSub. repeat ev. Qed.
Lemma body_eqv tid c c' : same_call pc c c' -> eqv (resR eq) (body pc tid c) (body pc tid c').
Proof.
  intros H. destruct H; cbn [body]; try apply eqv_refl.
  all: unfold red_mount2, red_umount2, red_format, red_transact, red_rollback, red_settransmask, red_gettransmask, red_statvfs, red_open, red_unlink, red_mkdir, red_rmdir, red_rename, red_link, red_opendir, red_chdir.
  all: repeat ev.
  - destruct (mode_bad m); [apply eqv_refl|]. eapply eqv_bind; [now apply open_eqv|]. intros ? ? <-. apply eqv_refl.
  - eapply eqv_bind; [now apply unlink_eqv|]. intros ? ? <-. apply eqv_refl.
  - eapply eqv_bind; [now apply unlink_eqv|]. intros ? ? <-. apply eqv_refl.
  - eapply eqv_bind; [now apply open_eqv|]. intros ? ? <-. apply eqv_refl.
Qed.
Lemma api_same tid c c' x : same_call pc c c' -> api pc tid c x = api pc tid c' x.
Proof.
  intros H. unfold api. replace (precheck c') with (precheck c) by (destruct H; reflexivity). destruct (precheck c); auto.
  destruct (PosixEnter pc tid (fst x)) as [[u|e] s1].
  - now rewrite (eqv_eq _ _ s1 (body_eqv tid c c' H)).
  - destruct H; reflexivity.
Qed.

(** * When are paths the same? *)
Lemma picks_cstr p q n : cstr p = cstr q -> picks NV SEP prefix p n -> picks NV SEP prefix q n.
Proof using. unfold picks. now intros ->. Qed.
(** Whatever follows the terminator. *)
Lemma same_terminator p q : cstr p = cstr q -> same_path pc p q.
Proof using.
  intros E. constructor.
  - intros n. split; apply picks_cstr; auto.
  - unfold relative. now rewrite E.
  - intros _ _. now apply comps_cstr.
  - intros n t t' _ A A'. rewrite E, A' in A. apply app_inv_head in A. now subst.
Qed.
Definition nosep : Prop := forall n, n < NV -> ~ In SEP (prefix n).
(** With such prefixes the volume is determined by the bytes before the first separator. *)
Fixpoint upto (s : list N) : list N := match s with [] => [] | c :: s' => if c =? SEP then [] else c :: upto s' end.
Lemma whole_upto b s : ~ In SEP b -> (whole_prefix SEP b s <-> upto s = b).
Proof using.
  intros NI. revert s. induction b as [|c b IH]; intros s.
  - split.
    + intros [->|(t & ->)]; cbn; [auto|now rewrite N.eqb_refl].
    + intros E. destruct s as [|c s]; [left; auto|]. cbn in E. destruct (N.eqb_spec c SEP) as [->|]; [|discriminate]. right. exists s. auto.
  - assert (NI' : ~ In SEP b) by (intros X; apply NI; now right). assert (NC : c <> SEP) by (intros X; apply NI; now left). split.
    + intros H. assert (exists s', s = c :: s' /\ whole_prefix SEP b s') as (s' & -> & H').
      { destruct H as [->|(t & ->)]; [exists b; split; auto; now left|exists (b ++ SEP :: t); split; auto; right; eauto]. }
      cbn. destruct (N.eqb_spec c SEP); [tauto|]. f_equal. now apply IH.
    + intros E. destruct s as [|c' s]; [discriminate|]. cbn in E. destruct (N.eqb_spec c' SEP); [discriminate|]. injection E as -> E. destruct (proj2 (IH NI' s) E) as [->|(t & ->)]; [left; auto|right; exists t; auto].
Qed.
Lemma picks_upto p q n : nosep -> upto (cstr p) = upto (cstr q) -> picks NV SEP prefix p n -> picks NV SEP prefix q n.
Proof using.
  intros NS E (A & H). assert (W : forall m, m < NV -> (whole_prefix SEP (prefix m) (cstr p) <-> whole_prefix SEP (prefix m) (cstr q))). { intros m Hm. rewrite !whole_upto, E; auto; tauto. }
  split; auto. destruct H as [(B & C & D)|(B & C)].
  - left. split; auto. split; [now apply W|]. intros m Hm X. apply D; auto. now apply W.
  - right. split; auto. intros m Hm X Y. apply (C m Hm X). now apply W.
Qed.
Lemma split_cons sep s : exists x l, split sep s = x :: l.
Proof using. induction s as [|c s (x & l & IH)]; cbn; [eauto|]. destruct (c =? sep); [eauto|]. rewrite IH. eauto. Qed.
(** The components of strings that agree up to a separator. *)
Lemma split_app a s : exists A x, split SEP a = A ++ [x] /\ split SEP (a ++ SEP :: s) = A ++ x :: split SEP s.
Proof using.
  induction a as [|c a (A & x & E1 & E2)]; cbn [app split].
  - exists [], []. rewrite N.eqb_refl. auto.
  - rewrite E1, E2. destruct (c =? SEP); [exists ([] :: A), x; auto|]. destruct A as [|y A]; cbn; [exists [], (c :: x); auto|exists ((c :: y) :: A), x; auto].
Qed.
Lemma cstr_nz s : nozero s -> cstr s = s.
Proof using. induction s as [|c s IH]; auto. intros H. apply nozero_cons in H as [H1 H2]. cbn. destruct (N.eqb_spec c 0); [tauto|]. now rewrite IH. Qed.
Lemma nozero_In s : nozero s <-> ~ In 0 s.
Proof using.
  induction s as [|c s IH]. { split; [intros _ []|]. intros _ k Hk. unfold nlen, lenN in Hk. cbn in Hk. lia. }
  split.
  - intros H [X|X]; apply nozero_cons in H as [H1 H2]; [auto|now apply IH].
  - intros H k Hk X. unfold nbyte in X. assert (In (nthN (c :: s) k 0) (c :: s)). { unfold nthN. apply nth_In. unfold nlen, lenN in Hk. lia. } unfold nthN in *. rewrite X in H0. auto.
Qed.
Lemma comps_double a s : nozero (a ++ SEP :: s) -> comps (a ++ SEP :: SEP :: s) = comps (a ++ SEP :: s) /\ comps (a ++ SEP :: s) = comps a ++ comps s.
Proof.
  intros NZ. assert (NZ2 : nozero (a ++ SEP :: SEP :: s)). { apply nozero_In. apply nozero_In in NZ. intros X. apply NZ. rewrite in_app_iff in *. cbn in *. tauto. }
  assert (NZa : nozero a) by (apply nozero_In; apply nozero_In in NZ; intros X; apply NZ; rewrite in_app_iff; auto).
  assert (NZs : nozero s) by (apply nozero_In; apply nozero_In in NZ; intros X; apply NZ; rewrite in_app_iff; cbn; auto).
  unfold PosixSpec.comps. rewrite (cstr_nz _ NZ), (cstr_nz _ NZ2), (cstr_nz _ NZa), (cstr_nz _ NZs). destruct (split_app a s) as (A & x & E1 & E2). destruct (split_app a (SEP :: s)) as (A' & x' & E1' & E2').
  rewrite E1 in E1'. apply app_inj_tail in E1' as [<- <-]. rewrite E2, E2', E1. cbn [split]. rewrite N.eqb_refl. rewrite !filter_app. cbn [filter nonempty]. split; auto. rewrite <- app_assoc. f_equal. destruct (nonempty x); auto.
Qed.
Lemma upto_app a s s' : upto (a ++ SEP :: s) = upto (a ++ SEP :: s').
Proof using. induction a as [|c a IH]; cbn; [now rewrite N.eqb_refl|]. destruct (c =? SEP); [auto|]. now rewrite IH. Qed.
Lemma upto_tail a : upto (a ++ [SEP]) = upto a.
Proof using. induction a as [|c a IH]; cbn; [now rewrite N.eqb_refl|]. destruct (c =? SEP); [auto|]. now rewrite IH. Qed.
Lemma sepfree_prefix (b : list N) x y t : ~ In SEP b -> x ++ SEP :: y = b ++ t -> exists x', x = b ++ x' /\ t = x' ++ SEP :: y.
Proof using.
  revert x. induction b as [|c b IH]; intros x NI E; cbn in E; [exists x; auto|]. destruct x as [|d x].
  - exfalso. apply NI. left. cbn in E. congruence.
  - assert (E1 : d = c) by (cbn in E; congruence). assert (E2 : x ++ SEP :: y = b ++ t) by (cbn in E; congruence).
    destruct (IH x) as (x' & -> & ->); [intros X; apply NI; now right|auto|]. subst. exists x'. auto.
Qed.
(** A doubled separator. *)
Lemma same_double a s : nosep -> nozero (a ++ SEP :: s) -> same_path pc (a ++ SEP :: SEP :: s) (a ++ SEP :: s).
Proof.
  intros NS NZ. assert (NZ2 : nozero (a ++ SEP :: SEP :: s)). { apply nozero_In. apply nozero_In in NZ. intros X. apply NZ. rewrite in_app_iff in *. cbn in *. tauto. }
  assert (RR : relative SEP (a ++ SEP :: SEP :: s) <-> relative SEP (a ++ SEP :: s)).
  { unfold relative. rewrite (cstr_nz _ NZ), (cstr_nz _ NZ2). destruct a as [|c a]; cbn [app]; split; intros (d & t & E & X); injection E as E0 _; rewrite <- E0 in X; eauto. }
  assert (UU : upto (cstr (a ++ SEP :: SEP :: s)) = upto (cstr (a ++ SEP :: s))) by (rewrite (cstr_nz _ NZ), (cstr_nz _ NZ2); apply upto_app).
  constructor; auto.
  - intros n. split; apply picks_upto; auto.
  - intros _ _. now apply comps_double.
  - intros n t t' PK E E'. rewrite (cstr_nz _ NZ2) in E. rewrite (cstr_nz _ NZ) in E'. assert (NP : ~ In SEP (prefix n)) by (apply NS; apply PK).
    destruct (sepfree_prefix _ _ _ _ NP E) as (x & Ex & ->). destruct (sepfree_prefix _ _ _ _ NP E') as (x' & Ex' & ->). rewrite Ex in Ex'. apply app_inv_head in Ex'. subst x'.
    apply comps_double. apply nozero_In. apply nozero_In in NZ. intros X. apply NZ. rewrite Ex, <- app_assoc. apply in_app_iff. auto.
Qed.
(** A trailing separator. *)
Lemma same_trailing a : nosep -> nozero a -> a <> [] -> same_path pc (a ++ [SEP]) a.
Proof.
  intros NS NZ NE. assert (NZ2 : nozero (a ++ [SEP])). { apply nozero_In. apply nozero_In in NZ. intros X. apply in_app_iff in X as [X|[X|[]]]; auto. now apply (ok_sep _ PC). }
  assert (UU : upto (cstr (a ++ [SEP])) = upto (cstr a)) by (rewrite (cstr_nz _ NZ), (cstr_nz _ NZ2); apply upto_tail).
  assert (TR : forall x, nozero (x ++ [SEP]) -> comps (x ++ [SEP]) = comps x). { intros x Hx. rewrite (proj2 (comps_double x [] Hx)). change (comps []) with (@nil name). apply app_nil_r. }
  constructor.
  - intros n. split; apply picks_upto; auto.
  - unfold relative. rewrite (cstr_nz _ NZ), (cstr_nz _ NZ2). destruct a as [|c a]; [tauto|]. cbn. split; intros (d & t & E & X); injection E as E0 _; rewrite <- E0 in X; eauto.
  - intros _ _. auto.
  - intros n t t' PK E E'. rewrite (cstr_nz _ NZ2) in E. rewrite (cstr_nz _ NZ) in E'. rewrite E' in E. rewrite <- app_assoc in E. apply app_inv_head in E. subst t. apply TR.
    apply nozero_In. apply nozero_In in NZ2. intros X. apply NZ2. rewrite E', <- app_assoc. apply in_app_iff. auto.
Qed.
End Same.
