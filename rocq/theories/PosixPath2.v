(** Volume selection and the entry points of path.c. *)
From Verif Require Import Base Count FsState FsDir FsSpec FsSpecN FsCoreP2 FsMach FsVolume FsVolumeP FsReach PropFs PropNs Posix PosixSpec PosixWp PosixPath.
Ltac Zify.zify_post_hook ::= idtac.

Lemma nozero_cons c l : nozero (c :: l) -> c <> 0 /\ nozero l.
Proof.
  intros H. split; [exact (H 0 ltac:(unfold nlen, lenN; cbn [length]; lia))|]. intros k Hk. specialize (H (k + 1)). unfold nbyte, nthN, nlen, lenN in *.
  replace (N.to_nat (k + 1)) with (S (N.to_nat k)) in H by lia. apply H. cbn [length]. lia.
Qed.
Lemma strlen_nz l : nozero l -> strlen l = length l.
Proof. induction l as [|c l IH]; auto. intros H. apply nozero_cons in H as [H1 H2]. cbn. destruct (N.eqb_spec c 0); [tauto|]. now rewrite IH. Qed.
Lemma below_in n k : In k (below n) <-> k < n.
Proof. unfold below. rewrite in_map_iff. split; [intros (x & <- & H); apply in_seq in H; lia|]. intros H. exists (N.to_nat k). split; [lia|]. apply in_seq. lia. Qed.
Lemma first_some f n k : first f n = Some k -> k < n /\ f k = true.
Proof. unfold first. intros H. apply find_some in H as [H1 H2]. apply below_in in H1. auto. Qed.
Lemma first_none f n : first f n = None -> forall k, k < n -> f k = false.
Proof. unfold first. intros H k Hk. eapply find_none; eauto. apply below_in. auto. Qed.
Lemma first_ext f f' n : (forall k, k < n -> f k = f' k) -> first f n = first f' n.
Proof.
  unfold first. intros H. assert (X : forall k, In k (below n) -> f k = f' k) by (intros; apply H, below_in; auto). revert X. induction (below n) as [|a l IH]; cbn; auto.
  intros X. rewrite X by auto. destruct (f' a); auto.
Qed.
Lemma first_ex f n k : k < n -> f k = true -> exists k', first f n = Some k'.
Proof. intros H1 H2. destruct (first f n) eqn:E; eauto. rewrite (first_none _ _ E k H1) in H2. discriminate. Qed.

Section Pre.
Variable pc : pcfg.
Hypothesis PC : pcfg_ok pc.
Set Default Proof Using "PC".
Notation SEP := (SEP pc).
Notation NV := (NV pc).
Notation prefix := (prefix pc).

Lemma strneq_spec pre : nozero pre -> forall path, strneq (length pre) path pre = true <-> cstr path = pre ++ cstr (skipn (length pre) path).
Proof using.
  induction pre as [|c pre IH]; intros NZ path; [cbn; tauto|]. apply nozero_cons in NZ as [H1 H2]. cbn [length strneq ch tl].
  destruct path as [|d path]; cbn [ch tl cstr skipn].
  - destruct (N.eqb_spec 0 c) as [E|E]; [congruence|]. split; discriminate.
  - destruct (N.eqb_spec d c) as [->|E].
    + destruct (N.eqb_spec c 0); [tauto|]. rewrite (IH H2). cbn [app]. split; [intros ->; auto|]. injection 1; auto.
    + split; [discriminate|]. destruct (d =? 0); [discriminate|]. cbn [app]. injection 1 as -> _. tauto.
Qed.
Lemma cstr_len s : (length (cstr s) <= length s)%nat.
Proof using. induction s as [|c s IH]; cbn; auto. destruct (c =? 0); cbn; lia. Qed.
Lemma cstr_skip k : forall s, (k <= length (cstr s))%nat -> cstr (skipn k s) = skipn k (cstr s).
Proof using.
  induction k as [|k IH]; intros s H; auto. destruct s as [|c s]; auto. cbn [cstr] in *. destruct (c =? 0) eqn:E; [cbn in H; lia|]. cbn [skipn]. apply IH. cbn in H. lia.
Qed.
Lemma matches_spec pre path : nozero pre -> (prefix_matches pc path pre = true <-> whole_prefix SEP pre (cstr path)).
Proof.
  intros NZ. pose proof (ok_sep _ PC) as S0. unfold prefix_matches. rewrite (strlen_nz _ NZ), andb_true_iff, (strneq_spec pre NZ path). set (t := skipn (length pre) path).
  unfold is_end, whole_prefix. split.
  - intros [E H]. destruct t as [|c t']; cbn [cstr ch] in *; [left; now rewrite app_nil_r in E|]. destruct (N.eqb_spec c 0) as [->|H0]; [left; now rewrite app_nil_r in E|].
    cbn [orb] in H. apply N.eqb_eq in H. subst c. right. eauto.
  - intros H. assert (E : cstr path = pre ++ cstr t).
    { unfold t. destruct H as [E|(u & E)].
      - rewrite cstr_skip by (rewrite E; lia). rewrite E at 1 2. rewrite skipn_all. now rewrite app_nil_r.
      - rewrite cstr_skip by (rewrite E, app_length; lia). rewrite E at 1 2. rewrite skipn_app, skipn_all, Nat.sub_diag. reflexivity. }
    split; auto. assert (X : cstr t = [] \/ exists u, cstr t = SEP :: u).
    { destruct H as [H|(u & H)]; rewrite H in E.
      - left. rewrite <- (app_nil_r pre) in E at 1. now apply app_inv_head in E.
      - right. apply app_inv_head in E. eauto. }
    destruct t as [|c t']; cbn [cstr ch] in *; auto. destruct (N.eqb_spec c 0) as [->|H0]; auto. cbn [orb]. destruct X as [X|(u & X)]; [discriminate|]. injection X as -> _. apply N.eqb_refl.
Qed.
Lemma pre_inj (a b c : list N) : whole_prefix SEP a c -> whole_prefix SEP b c -> length a = length b -> a = b.
Proof using.
  assert (H : forall a, whole_prefix SEP a c -> a = firstn (length a) c).
  { intros x [->|(t & ->)]; [now rewrite firstn_all|]. rewrite firstn_app, firstn_all, Nat.sub_diag. cbn. now rewrite app_nil_r. }
  intros H1 H2 E. rewrite (H a H1), (H b H2), E. reflexivity.
Qed.

Definition pinv (path : str) (l : list N) (a : option N * nat * option N) : Prop :=
  let '(m, len, d) := a in
  match m with
  | None => len = O /\ forall n, In n l -> prefix n <> [] -> ~ whole_prefix SEP (prefix n) (cstr path)
  | Some n => In n l /\ prefix n <> [] /\ whole_prefix SEP (prefix n) (cstr path) /\ len = length (prefix n) /\
      forall k, In k l -> prefix k <> [] -> whole_prefix SEP (prefix k) (cstr path) -> (length (prefix k) <= len)%nat
  end /\
  match d with Some n => In n l /\ prefix n = [] | None => forall n, In n l -> prefix n <> [] end.
Lemma pinv_step path l a n : n < NV -> pinv path l a -> pinv path (l ++ [n]) (prefix_step pc path a n).
Proof.
  intros Hn H. destruct a as [[m len] d]. destruct H as [HM HD]. pose proof (ok_pre _ PC n Hn) as NZ. unfold prefix_step. rewrite (strlen_nz _ NZ).
  pose proof (matches_spec (prefix n) path NZ) as MS.
  assert (L : forall k, In k (l ++ [n]) <-> In k l \/ k = n). { intros k. rewrite in_app_iff. cbn [In]. intuition congruence. }
  destruct (Nat.eqb_spec (length (prefix n)) 0) as [E0|E0].
  { assert (EP : prefix n = []) by (destruct (prefix n); [auto|discriminate]). split; [|split; auto; apply L; auto].
    destruct m as [m|]; [destruct HM as (A & B & C & D & E)|destruct HM as (A & B)].
    - split; [apply L; auto|]. repeat split; auto. intros k Hk NE. apply L in Hk as [Hk|Hk]; [auto|]. rewrite Hk in NE. tauto.
    - split; auto. intros k Hk NE. apply L in Hk as [Hk|Hk]; auto. rewrite Hk in NE. tauto. }
  assert (NE : prefix n <> []) by (intros X; rewrite X in E0; apply E0; reflexivity).
  assert (HD' : match d with Some k => In k (l ++ [n]) /\ prefix k = [] | None => forall k, In k (l ++ [n]) -> prefix k <> [] end).
  { destruct d as [k|]; [destruct HD; split; auto; apply L; auto|]. intros k Hk. apply L in Hk as [Hk|Hk]; [auto|congruence]. }
  destruct (prefix_matches pc path (prefix n)) eqn:EM.
  - pose proof (proj1 MS eq_refl) as WN. destruct (Nat.ltb_spec len (length (prefix n))) as [LT|GE].
    + split; auto. split; [apply L; auto|]. split; [auto|]. split; [auto|]. split; [auto|]. intros k Hk NEk WK. apply L in Hk as [Hk|Hk]; [|subst; lia].
      destruct m as [m|]; [destruct HM as (A & B & C & D & E); specialize (E k Hk NEk WK); lia|]. destruct HM as (_ & X). destruct (X k Hk NEk WK).
    + split; auto. destruct m as [m|]; [|lia]. destruct HM as (A & B & C & D & E). split; [apply L; auto|]. split; [auto|]. split; [auto|]. split; [auto|]. intros k Hk NEk WK. apply L in Hk as [Hk|Hk]; [auto|subst; lia].
  - assert (NW : ~ whole_prefix SEP (prefix n) (cstr path)) by (intros X; apply MS in X; discriminate). split; auto.
    destruct m as [m|]; [destruct HM as (A & B & C & D & E)|destruct HM as (A & B)].
    + split; [apply L; auto|]. split; [auto|]. split; [auto|]. split; [auto|]. intros k Hk NEk WK. apply L in Hk as [Hk|Hk]; [auto|]. subst k. tauto.
    + split; auto. intros k Hk NEk. apply L in Hk as [Hk|Hk]; [auto|]. subst k. tauto.
Qed.
Lemma pinv_fold path : forall r l a, (forall n, In n r -> n < NV) -> pinv path l a -> pinv path (l ++ r) (fold_left (prefix_step pc path) r a).
Proof.
  induction r as [|n r IH]; intros l a Hr H; [now rewrite app_nil_r|]. cbn [fold_left]. replace (l ++ n :: r) with ((l ++ [n]) ++ r) by (rewrite <- app_assoc; reflexivity).
  apply IH; [intros; apply Hr; cbn; auto|]. apply pinv_step; auto. apply Hr; cbn; auto.
Qed.
(** path.c selects the volume of the specification. *)
Theorem prefix_lookup_spec path : match prefix_lookup pc path with Some n => picks NV SEP prefix path n | None => picks_none NV SEP prefix path end.
Proof.
  pose proof (pinv_fold path (below NV) [] (None, O, None)) as H. cbn [app] in H. unfold prefix_lookup.
  assert (H1 : forall n, In n (below NV) -> n < NV) by (intros; now apply below_in).
  specialize (H H1). destruct (fold_left _ _ _) as [[m len] d]. destruct H as [HM HD]; [cbn; split; auto; tauto|].
  destruct m as [n|].
  - destruct HM as (A & B & C & D & E). split; [auto|]. left. split; [auto|]. split; [auto|]. intros k Hk WK. destruct (N.eq_dec k n) as [|NK]; auto. right.
    destruct (prefix k) as [|c x] eqn:EK; [unfold lenN; destruct (prefix n); [tauto|cbn; lia]|]. rewrite <- EK in *.
    assert (NEk : prefix k <> []) by (rewrite EK; discriminate). specialize (E k (proj2 (below_in _ _) Hk) NEk WK). unfold lenN.
    destruct (Nat.eq_dec (length (prefix k)) (length (prefix n))) as [EQ|NQ]; [|lia]. exfalso. apply NK. apply (ok_uniq _ PC k n); auto. eapply pre_inj; eauto.
  - destruct HM as (_ & HM). destruct d as [n|].
    + destruct HD as [A B]. split; [auto|]. right. split; auto. intros k Hk NE. apply HM; auto. now apply below_in.
    + intros k Hk. apply below_in in Hk. split; [auto|]. apply HM; auto.
Qed.
Lemma prefix_lookup_lt path n : prefix_lookup pc path = Some n -> n < NV.
Proof. intros H. pose proof (prefix_lookup_spec path) as X. rewrite H in X. apply X. Qed.
(** The specification determines the volume. *)
Lemma picks_fun path m n : picks NV SEP prefix path m -> picks NV SEP prefix path n -> m = n.
Proof.
  intros (A & X) (B & Y). destruct X as [(N1 & W1 & M1)|(E1 & M1)], Y as [(N2 & W2 & M2)|(E2 & M2)].
  - destruct (M1 n B W2) as [|L1]; auto. destruct (M2 m A W1) as [|L2]; auto. lia.
  - destruct (M2 m A N1 W1).
  - destruct (M1 n B N2 W2).
  - apply (ok_uniq _ PC); auto. congruence.
Qed.
End Pre.

Section Look.
Variable pc : pcfg.
Hypothesis PC : pcfg_ok pc.
Set Default Proof Using "PC".
Notation SEP := (SEP pc).
Notation NV := (NV pc).
Notation prefix := (prefix pc).
Notation MM := (MMASK pc).
Notation TM := (TMASK pc).
Notation TD := (TDEF pc).
Notation comps := (comps SEP).
Notation VOK := (VOK pc).
Notation VInv := (VInv pc).
Notation wp := (wp pc).
Notation vask := (vask pc).
Notation vdir := (vdir pc).
Notation vfile := (vfile pc).
Definition vlook (n : N) := look (gs pc n) (ATOM pc n) MM TM.
Definition vlook_name (n : N) (e : errno) := look_name (gs pc n) (ATOM pc n) MM TM e.

Lemma unm_vask n v c : v_mnt v = false -> reads c = true -> vask n v c = Err EINVAL.
Proof using. intros H R. unfold PosixWp.vask, ask. now rewrite (unm_ask pc n v c oz oz H R). Qed.
Lemma vfile_nz n v : n < NV -> VOK n v -> v_mnt v = true -> ~ vfile n v 0.
Proof.
  intros Hn HV MN H. destruct (VOK_W pc PC n v Hn HV MN) as (W & C & SA & _). destruct (proj1 (vfile_W pc PC n v W C _ _ 0 Hn SA) H) as (nl & sz & b & E).
  pose proof (wf_none _ (vWF pc PC _ _ _ _ _ _ Hn SA)). congruence.
Qed.
Lemma wp_PathWalk i p want (Q : res (N * N * str) -> pst -> Prop) s : VInv s -> p_cur s < NV -> 
  (v_mnt (p_v s (p_cur s)) = true -> vdir (p_cur s) (p_v s (p_cur s)) i) -> i <> 0 ->
  (forall s', VInv s' -> same s s' -> v_mnt (p_v s (p_cur s)) = false -> Q (Err EINVAL) s') ->
  (forall r s', VInv s' -> same s s' -> v_mnt (p_v s (p_cur s)) = true -> walked pc (p_cur s) (p_v s (p_cur s)) i p want p r -> Q r s') ->
  wp (PathWalk pc i p want) Q s.
Proof.
  intros HV HC HD NZ H1 H2. unfold PathWalk. apply wp_bind. destruct (N.eqb_spec i 0); [tauto|]. cbn [negb]. apply wp_ret. apply wp_bind.
  apply (wp_core_num pc PC); auto; [exact I|]. intros s1 HV1 SM. destruct (v_mnt (p_v s (p_cur s))) eqn:MN.
  - destruct (J_dir pc PC _ _ _ HC (HV _ HC) MN (HD eq_refl)) as (pi & E). rewrite E. destruct SM as (RS & CU & VE).
    eapply wp_conseq; [apply (walk_spec pc PC want (S (length p)) p p i pi s1)|]; auto; rewrite ?CU, ?VE; auto.
    { right. auto. } intros r s2 (HV2 & SM2 & WK). apply H2; auto. eapply same_trans; [split; [exact RS|split; [exact CU|exact VE]]|exact SM2].
  - rewrite unm_vask; auto.
Qed.
Lemma wp_Lookup i p (Q : res N -> pst -> Prop) s : VInv s -> p_cur s < NV -> 
  (v_mnt (p_v s (p_cur s)) = true -> vdir (p_cur s) (p_v s (p_cur s)) i) -> i <> 0 ->
  (forall s', VInv s' -> same s s' ->
     (forall j, vlook (p_cur s) (p_v s (p_cur s)) i (comps p) = Ok j -> v_mnt (p_v s (p_cur s)) = true /\ (vfile (p_cur s) (p_v s (p_cur s)) j \/ vdir (p_cur s) (p_v s (p_cur s)) j)) ->
     Q (vlook (p_cur s) (p_v s (p_cur s)) i (comps p)) s') ->
  wp (RedPathLookup pc i p) Q s.
Proof.
  intros HV HC HD NZ H. unfold RedPathLookup. apply wp_bind. apply wp_PathWalk; auto.
  - intros s' HV' SM MN. specialize (H s' HV' SM). unfold vlook, look in H. rewrite MN in H. apply H. discriminate.
  - intros r s' HV' SM MN WK. specialize (H s' HV' SM). unfold vlook, look in H. rewrite MN in H. unfold walked in WK. unfold vresolve in WK.
    destruct (resolve _ _ _ _ _ i (comps p)) as [j|e].
    + destruct WK as (pj & l & -> & HJ). apply wp_ret. cbn [fst]. apply H. injection 1 as <-. split; auto. apply (J_exists _ _ _ _ _ HJ).
    + subst r. apply H. discriminate.
Qed.
Lemma comps_nonempty p c : In c (comps p) -> c <> [].
Proof using. unfold PosixSpec.comps. intros H ->. apply filter_In in H as [_ H]. discriminate. Qed.
Lemma parent_nonempty g atom MM' TM' v i l j c : resolve_parent g atom MM' TM' v i l = Ok (j, Some c) -> (forall x, In x l -> x <> []) -> c <> [].
Proof using.
  unfold resolve_parent. intros H N. destruct (rev l) as [|x r] eqn:E; [discriminate|]. assert (IN : In x l) by (apply in_rev; rewrite E; left; auto).
  destruct (resolve _ _ _ _ v i (rev r)); [|discriminate]. destruct (list_eq_dec N.eq_dec x dot1); [destruct (rstep _ _ _ _ v a x); discriminate|].
  destruct (list_eq_dec N.eq_dec x dot2); [destruct (rstep _ _ _ _ v a x); discriminate|]. injection H as <- <-. auto.
Qed.
Lemma wp_ToName i p e (Q : res (N * name) -> pst -> Prop) s : VInv s -> p_cur s < NV ->
  (v_mnt (p_v s (p_cur s)) = true -> vdir (p_cur s) (p_v s (p_cur s)) i) -> i <> 0 -> (i = ROOT \/ comps p <> []) ->
  (forall s', VInv s' -> same s s' ->
     (forall d nm, vlook_name (p_cur s) e (p_v s (p_cur s)) i (comps p) = Ok (d, nm) -> v_mnt (p_v s (p_cur s)) = true /\ nozero nm /\ pname pc nm /\ nm <> dot1 /\ nm <> dot2) ->
     Q (vlook_name (p_cur s) e (p_v s (p_cur s)) i (comps p)) s') ->
  wp (RedPathToName pc i p e) Q s.
Proof.
  intros HV HC HD NZ HI H. unfold RedPathToName. apply wp_bind. apply wp_PathWalk; auto.
  - intros s' HV' SM MN. specialize (H s' HV' SM). unfold vlook_name, look_name in H. rewrite MN in H. apply H. discriminate.
  - intros r s' HV' SM MN WK. specialize (H s' HV' SM). unfold vlook_name, look_name in H. rewrite MN in H. unfold walked in WK. unfold to_name in WK.
    pose proof (HV _ HC) as VK.
    destruct (resolve_parent _ _ _ _ _ i (comps p)) as [[j [c|]]|e'] eqn:ER.
    + destruct WK as (l & -> & <- & N1 & N2 & EX). apply wp_bind. destruct (N.eqb_spec j 0) as [->|NJ].
      { exfalso. destruct EX as [EX|EX]; [|exact (vdir_nz pc PC _ _ _ HC VK MN EX eq_refl)]. exact (vfile_nz _ _ HC VK MN EX). }
      cbn [negb]. apply wp_ret. apply wp_bind. pose proof (is_dot_spec pc PC l) as D1. pose proof (is_dotdot_spec pc PC l) as D2. unfold IsDotOrDotDot.
      destruct (IsDot pc l); [destruct N1; tauto|]. destruct (IsDotDot pc l); [destruct N2; tauto|]. cbn [orb negb]. apply wp_ret, wp_ret. apply H.
      injection 1 as <- <-. split; auto. split; [apply name_nozero|]. split; [|auto]. split; [apply name_nsep|]. split; [apply name_nozero|]. split; [|auto].
      eapply parent_nonempty; [exact ER|apply comps_nonempty].
    + destruct WK as (pj & l & -> & HJ & L0 & L1). apply wp_bind. 
      assert (HJD : vdir (p_cur s) (p_v s (p_cur s)) j).
      { destruct HI as [->|HI]; [|apply L1; auto]. destruct (comps p) eqn:EC; [|apply L1; discriminate]. cbn in ER. injection ER as <-. auto. }
      assert (HJP : vask (p_cur s) (p_v s (p_cur s)) (CDirParent j) = Ok (ONum pj)) by (destruct HJ as [HJ|[_ HJ]]; auto; destruct (vdir_not_file _ _ _ _ HJD HJ)).
      assert (HJ0 : pj = 0 <-> j = ROOT).
      { split; [intros ->; eapply (par0_root pc PC); eauto|]. intros ->. rewrite (proj2 (J_root pc PC _ _ HC VK MN)) in HJP. congruence. }
      destruct (N.eqb_spec pj 0) as [E0|E0]; cbn [negb].
      * apply wp_fail. replace (j =? ROOT) with true in H by (symmetry; apply N.eqb_eq; tauto). apply H. discriminate.
      * apply wp_ret. apply wp_bind. replace (j =? ROOT) with false in H by (symmetry; apply N.eqb_neq; tauto).
        assert (NC : comps p <> []). { destruct HI as [->|HI]; auto. intros EC. rewrite EC in ER. cbn in ER. injection ER as <-. tauto. }
        destruct (L1 NC) as [DT _]. pose proof (is_dot_spec pc PC l) as D1. pose proof (is_dotdot_spec pc PC l) as D2. unfold IsDotOrDotDot.
        replace (IsDot pc l || IsDotDot pc l) with true by (symmetry; apply orb_true_iff; tauto). apply wp_fail. apply H. discriminate.
    + subst r. apply H. discriminate.
Qed.
End Look.
