(** Effects of sync, unlink, rmdir, opendir and getcwd. *)
From Verif Require Import Base Count FsState FsDir FsSpec FsSpecN FsCoreP2 FsMach FsVolume FsVolumeP FsReach PropFs PropNs Posix PosixSpec PosixWp PosixPath PosixPath2 PosixInv PosixStart PosixCalls PosixCalls2 PosixCalls3 PosixCalls4 PosixCalls5 PosixCalls6.
From Coq Require Import ZArith.
Ltac Zify.zify_post_hook ::= idtac.

(** The path with components [l]. *)
Fixpoint join (sep : N) (l : list name) : str := match l with [] => [] | x :: l' => match l' with [] => x | _ => x ++ sep :: join sep l' end end.

Section Calls7.
Variable pc : pcfg.
Hypothesis PC : pcfg_ok pc.
Set Default Proof Using "PC".
Notation SEP := (SEP pc).
Notation NV := (NV pc).
Notation HC := (HC pc).
Notation TC := (TC pc).
Notation MM := (MMASK pc).
Notation TM := (TMASK pc).
Notation TD := (TDEF pc).
Notation VOK := (VOK pc).
Notation VInv := (VInv pc).
Notation PInv := (PInv pc).
Notation wp := (wp pc).
Notation vask := (vask pc).
Notation vdir := (vdir pc).
Notation vfile := (vfile pc).
Notation vstep := (vstep pc).
Notation vlook := (vlook pc).
Notation did := (did pc).
Notation Ctx := (Ctx pc).
Notation pname := (pname pc).
Notation cwd_is := (cwd_is pc).

Lemma do_unlink tid path s : Ctx tid s -> wp (red_unlink pc tid path) (fun r s' => Ctx tid s' /\ unlink_post pc tid path FTYPE_EITHER s r s') s.
Proof.
  intros CX. unfold red_unlink. apply wp_bind. eapply wp_conseq; [apply do_unlinksub; eauto|]. intros [u|e] s' X; cbn in X; [apply wp_ret|]; exact X.
Qed.
Lemma do_rmdir tid path s : Ctx tid s -> wp (red_rmdir pc tid path) (fun r s' => Ctx tid s' /\ unlink_post pc tid path FTYPE_DIR s r s') s.
Proof.
  intros CX. unfold red_rmdir. apply wp_bind. eapply wp_conseq; [apply do_unlinksub; eauto|]. intros [u|e] s' X; cbn in X; [apply wp_ret|]; exact X.
Qed.
(** The stream is the index of the handle. *)
Definition opendir_post (tid : N) (path : str) (s : pst) (r : res pout) (s' : pst) : Prop :=
  exists r0, open_post pc tid path O_RDONLY FTYPE_DIR s r0 s' /\ r = match r0 with Ok (k, _) => Ok (RDir k) | Err e => Err e end.
Lemma starts_nv tid path s n i l : Ctx tid s -> starts pc tid path s (Ok (n, i, l)) -> n < NV.
Proof using.
  intros CX SS. inversion SS as [? ? P| ? ? ? ? CW|]; subst; [apply P|]. destruct CW as (k & Hk & _ & <- & _). apply (i_t _ _ (x_inv _ _ _ CX) (x_init _ _ _ CX) k Hk).
Qed.
Lemma do_opendir tid path s : Ctx tid s -> wp (red_opendir pc tid path) (fun r s' => Ctx tid s' /\ opendir_post tid path s r s') s.
Proof.
  intros CX. unfold red_opendir. apply wp_bind. eapply wp_conseq; [apply do_fildesopen; eauto|].
  intros [[k fd]|e] s' (CX' & OP); cbn [snd].
  2: { split; auto. exists (Err e). auto. }
  apply wp_ret. split; auto. exists (Ok (k, fd)). split; auto. f_equal. f_equal.
  destruct OP as ([[[n i] l]|e] & SS & OP); [|destruct OP; discriminate]. pose proof (starts_nv _ _ _ _ _ _ CX SS) as Hn.
  destruct (s_ro (v_s (p_v s n)) && negb (O_RDONLY =? O_RDONLY)); [destruct OP; discriminate|].
  destruct OP as [(_ & X & _)|(k' & LF & OP)]; [discriminate|]. change (has O_RDONLY O_CREAT) with false in OP. cbn match in OP.
  destruct (vlook n (p_v s n) i l) as [j|e]; [|destruct OP; discriminate]. unfold open_existing in OP. change (has O_RDONLY O_TRUNC) with false in OP. cbn match in OP.
  destruct OP as [(_ & X & _)|(_ & OP)]; [discriminate|]. change (negb (has O_RDONLY O_RDONLY)) with false in OP. cbn match in OP. destruct OP as (_ & OP & _). injection OP as -> ->.
  pose proof (ok_nv _ PC). pose proof (ok_hc _ PC). destruct LF as (Hk & _). destruct (i_gen _ _ (x_inv _ _ _ CX) n Hn) as [HG _]. rewrite unpack_of; [reflexivity|lia|lia|lia].
Qed.
Definition synced (n : N) (v v' : vol) : Prop :=
  if v_mnt v && negb (s_ro (v_s v)) && has (v_mask v) T_SYNC then vstep n v (Some (ECall CTransact (Ok OUnit))) v' else v' = v.
Definition sync_post (s : pst) (r : res pout) (s' : pst) : Prop := r = Ok RUnit /\ rest s s' /\ forall n, n < NV -> synced n (p_v s n) (p_v s' n).
Lemma do_sync tid s : Ctx tid s -> wp (red_sync pc) (fun r s' => Ctx tid s' /\ sync_post s r s') s.
Proof.
  intros CX. unfold red_sync. apply wp_bind.
  assert (LOOP : forall l, NoDup l -> (forall n, In n l -> n < NV) ->
    wp (fold_left (fun m n => catch m (sync_vol pc n)) l (ret tt)) (fun (r : res unit) s' => r = Ok tt /\ Ctx tid s' /\ rest s s' /\
      (forall n, In n l -> synced n (p_v s n) (p_v s' n)) /\ forall n, ~ In n l -> p_v s' n = p_v s n) s).
  { induction l as [|n l IH] using rev_ind; intros ND HL.
    - cbn. split; auto. split; auto. split; [repeat split|]. split; [intros ? []|auto].
    - rewrite fold_left_app. cbn [fold_left]. apply wp_catch. eapply wp_conseq.
      { apply IH; [apply NoDup_remove_1 in ND; rewrite app_nil_r in ND; auto|]. intros m Hm. apply HL. apply in_or_app; auto. }
      intros r s1 (-> & CX1 & RS1 & H1 & H2). assert (NI : ~ In n l). { apply NoDup_remove_2 in ND. rewrite app_nil_r in ND. auto. }
      assert (Hn : n < NV) by (apply HL, in_or_app; right; left; auto).
      assert (FIN : forall s2, Ctx tid s2 -> rest s1 s2 -> synced n (p_v s n) (p_v s2 n) -> (forall m, m <> n -> p_v s2 m = p_v s1 m) ->
        Ok tt = Ok tt /\ Ctx tid s2 /\ rest s s2 /\ (forall m, In m (l ++ [n]) -> synced m (p_v s m) (p_v s2 m)) /\ forall m, ~ In m (l ++ [n]) -> p_v s2 m = p_v s m).
      { intros s2 CX2 RS2 SY OT. split; auto. split; auto. split; [eapply rest_trans; eauto|]. split.
        - intros m Hm. apply in_app_or in Hm as [Hm|[<-|[]]]; auto. rewrite OT by congruence. auto.
        - intros m Hm. rewrite OT; [apply H2|]; intros X; apply Hm, in_or_app; [auto|]. subst. right. left. auto. }
      unfold sync_vol. apply wp_catch. eapply wp_Get; eauto. rewrite (H2 n NI). destruct (v_mnt (p_v s n) && negb (s_ro (v_s (p_v s n)))) eqn:E.
      2: { apply FIN; auto; [repeat split|]. unfold synced. rewrite E. cbn. apply H2; auto. }
      pose proof E as E'. apply andb_true_iff in E' as [MN RO]. apply negb_true_iff in RO.
      apply wp_catch. apply wp_bind. eapply wp_SetCur; eauto. intros s2 CX2 ST2 CU2. pose proof ST2 as (RS2 & V2). apply wp_bind. eapply wp_maskget; eauto. intros s3 CX3 SM3.
      pose proof (still_trans _ _ _ ST2 (same_still _ _ SM3)) as ST3. pose proof ST3 as (RS3 & V3). rewrite CU2, V2, (H2 n NI), MN. destruct (has (v_mask (p_v s n)) T_SYNC) eqn:EM.
      + eapply wp_do_unit; eauto; [exact I|exact I|apply harmless_easy; [reflexivity|discriminate|discriminate|discriminate]|]. intros o s4 CX4 DD _.
        assert (CU3 : p_cur s3 = n) by (destruct SM3 as (_ & -> & _); auto). rewrite CU3 in DD. assert (E3 : p_v s3 n = p_v s n) by (rewrite V3; apply H2; auto).
        assert (o = Ok OUnit) as ->. { eapply (did_transact pc PC s3 n); eauto; try (rewrite E3; auto). rewrite <- E3. apply (x_v _ _ _ CX3 _ Hn). }
        apply FIN; auto.
        * eapply rest_trans; [exact RS3|eapply did_rest; eauto].
        * unfold synced. rewrite E, EM. cbn. rewrite <- E3. apply step_at. auto.
        * intros m Hm. destruct DD as (_ & v' & _ & EV). rewrite EV. apply N.eqb_neq in Hm. rewrite Hm. auto.
      + apply FIN; auto. unfold synced. rewrite E, EM. cbn. rewrite V3. apply H2. auto. }
  eapply wp_conseq.
  { apply LOOP.
    - unfold below. apply FinFun.Injective_map_NoDup; [intros a b X; lia|]. apply seq_NoDup.
    - intros n Hn. unfold below in Hn. apply in_map_iff in Hn as (k & <- & Hk). apply in_seq in Hk. lia. }
  intros r s' (-> & CX' & RS & H1 & _). apply wp_ret. split; auto. split; auto. split; auto. intros n Hn. apply H1.
  unfold below. apply in_map_iff. exists (N.to_nat n). split; [lia|]. apply in_seq. lia.
Qed.

(** ** getcwd *)
(** The names that lead from the root directory to [i], and fuel that suffices to collect them. *)
Inductive pth (W : fs) : N -> list name -> nat -> Prop :=
| P_root : pth W ROOT [] 0
| P_step i p sl k nm l F : i <> ROOT -> W i = Some (ADir p sl) -> entry W p k nm i -> pth W p l F -> pth W i (l ++ [nm]) (Nat.max (S (N.to_nat k)) (S F)).
Lemma pth_ex W : WF W -> forall i, Reach W i -> exists l F, pth W i l F.
Proof using.
  intros WFW. induction 1 as [|i p sl E R (l & F & P)]; [exists [], O; constructor|]. destruct (N.eq_dec i ROOT) as [->|NR]; [exists [], O; constructor|].
  destruct (wf_dir _ WFW i p sl E NR) as (k & nm & EN & _). eexists. eexists. econstructor; eauto.
Qed.
Lemma wp_findname tid W C n v pi i k nm : n < NV -> vsim pc n v (Mnt W C (s_ro (v_s v)) (v_mask v)) -> entry W pi k nm i -> (forall k' nm', entry W pi k' nm' i -> k' = k) ->
  forall fuel pos s, Ctx tid s -> p_cur s = n -> p_v s n = v -> pos <= k ->
  wp (find_name pc fuel pi i pos) (fun r s' => Ctx tid s' /\ same s s' /\ (r = Ok nm \/ (fuel <= N.to_nat (k - pos))%nat /\ r = Err EFUBAR)) s.
Proof.
  intros Hn SA EN UN. induction fuel as [|fuel IH]; intros pos s CX CU EV HP; cbn [find_name].
  { apply wp_fail. split; auto. split; [apply same_refl|]. right. split; auto. lia. }
  unfold core_dirread. apply wp_bind. apply wp_bind. eapply wp_readcall; eauto; [exact I|]. intros s1 CX1 SM1. rewrite CU, EV.
  pose proof (vask_ok pc PC n v W C _ _ (CDirRead pi pos) Hn SA eq_refl I) as RD. cbn in RD.
  destruct (vask n v (CDirRead pi pos)) as [o|e].
  2: { exfalso. destruct EN as (q & sl & E1 & E2). destruct RD as [(_ & X)|(_ & a & b & c & X)]; congruence. }
  destruct o; try contradiction. destruct x as [[[nm' j]|] k']; apply wp_ret; cbn [fst snd].
  2: { exfalso. destruct RD as (_ & RD). exact (RD _ _ _ HP EN). }
  destruct RD as (l & HL & -> & EL & NL). destruct (N.eqb_spec j i) as [->|NJ].
  - apply wp_ret. split; auto. split; auto. left. pose proof (UN _ _ EL) as ->. destruct EL as (q & sl & E1 & E2), EN as (q' & sl' & E1' & E2'). congruence.
  - assert (LK : l < k). { destruct (N.lt_trichotomy l k) as [X|[X|X]]; auto; exfalso; [subst; destruct EL as (q & sl & E1 & E2), EN as (q' & sl' & E1' & E2'); congruence|]. exact (NL k nm i ltac:(lia) EN). }
    destruct SM1 as (RS1 & CU1 & V1). eapply wp_conseq; [apply IH; auto; [congruence|now rewrite V1|lia]|]. intros r s' (CX' & SM' & HR). split; auto. split.
    + eapply same_trans; [split; [exact RS1|split; [exact CU1|exact V1]]|auto].
    + destruct HR as [->|(HF & ->)]; auto. right. split; auto. lia.
Qed.
Lemma pname_of nm : pname nm -> name_of pc nm = nm.
Proof using.
  intros (A & B & _). assert (X : forall x, In x nm -> x <> 0 /\ x <> SEP).
  { intros x Hx. split; [|intros ->; auto]. destruct (In_nth _ _ 0 Hx) as (k & Hk & <-). specialize (B (N.of_nat k)). unfold nlen, lenN, nbyte, nthN in B. rewrite Nat2N.id in B. apply B. lia. }
  clear A B. induction nm as [|c nm IH]; auto. cbn. destruct (X c (or_introl eq_refl)) as [A B]. apply N.eqb_neq in A, B. rewrite A, B. cbn. f_equal. apply IH. intros x Hx. apply X. right. auto.
Qed.
Lemma join_cons sep x l : l <> [] -> join sep (x :: l) = x ++ sep :: join sep l.
Proof using. destruct l; [congruence|reflexivity]. Qed.
Lemma join_len sep l l2 : lenN (join sep l2) <= lenN (join sep (l ++ l2)).
Proof using.
  induction l as [|x l IH]; [cbn; lia|]. change ((x :: l) ++ l2) with (x :: (l ++ l2)). destruct (l ++ l2) as [|y l3] eqn:E.
  - apply app_eq_nil in E as [-> ->]. cbn. unfold lenN. cbn. lia.
  - rewrite join_cons by discriminate. unfold lenN in *. rewrite app_length. cbn [length]. lia.
Qed.
Lemma wp_cwdloop tid W C n v : n < NV -> vsim pc n v (Mnt W C (s_ro (v_s v)) (v_mask v)) -> cleanf pc W -> forall cwd size i l F, pth W i l F -> isdir W i ->
  forall fuel nms s, Ctx tid s -> p_cur s = n -> p_v s n = v -> Below W i cwd -> (i = cwd <-> nms = []) -> 
  wp (cwd_loop pc fuel size cwd i (join SEP nms)) (fun r s' => Ctx tid s' /\ same s s' /\
    (r = Ok (join SEP (l ++ nms)) \/ r = Err ERANGE /\ size < lenN (join SEP (l ++ nms)) + 1 \/ (fuel < F)%nat /\ r = Err EFUBAR)) s.
Proof.
  intros Hn SA CL cwd size i l F P. pose proof (vWF pc PC _ _ _ _ _ _ Hn SA) as WFW. induction P as [|i p sl k nm l F NR EI EN P IH]; intros DI fuel nms s CX CU EV BL EC.
  { destruct fuel; cbn [cwd_loop]; rewrite N.eqb_refl; apply wp_ret; (split; auto; split; [apply same_refl|]; left; reflexivity). }
  destruct fuel as [|fuel]; cbn [cwd_loop]; destruct (N.eqb_spec i ROOT) as [X|_]; try congruence.
  { apply wp_fail. split; auto. split; [apply same_refl|]. right. right. split; auto. lia. }
  apply wp_bind. eapply wp_ask; eauto; [exact I|]. intros s1 CX1 SM1. pose proof SM1 as (RS1 & CU1 & V1). rewrite CU, EV.
  rewrite (proj2 (vpar_W pc PC n v W C _ _ i p Hn SA)) by eauto. apply wp_bind.
  destruct (wf_dir _ WFW i p sl EI NR) as (k0 & nm0 & EN0 & UN0). assert (UN : forall k' nm', entry W p k' nm' i -> k' = k). { intros k' nm' X. destruct (UN0 _ _ _ X). destruct (UN0 _ _ _ EN). congruence. }
  eapply wp_conseq; [eapply (wp_findname tid W C n v p i k nm Hn SA EN UN (S fuel) 0 s1); auto; [congruence|now rewrite V1|lia]|].
  intros r s2 (CX2 & SM2 & HR). pose proof (same_trans _ _ _ SM1 SM2) as SM. destruct HR as [->|(HF & ->)].
  2: { split; auto. split; auto. right. right. split; auto. lia. }
  rewrite (pname_of nm) by (eapply CL; eauto). apply wp_bind.
  assert (EB : nm ++ (if negb (i =? cwd) then [SEP] else []) ++ join SEP nms = join SEP (nm :: nms)).
  { destruct (N.eqb_spec i cwd) as [E|E]; cbn [negb]. - apply EC in E. subst nms. cbn. apply app_nil_r. - rewrite join_cons by tauto. reflexivity. }
  assert (EL : lenN (join SEP nms) + 1 + (nlen nm + (if negb (i =? cwd) then 1 else 0)) = lenN (join SEP (nm :: nms)) + 1).
  { rewrite <- EB. unfold lenN, nlen, lenN. rewrite !app_length. destruct (negb (i =? cwd)); cbn [length]; lia. }
  rewrite <- app_assoc. cbn [app].
  apply wp_check; intros HS.
  - cbv zeta. rewrite EB. unfold store. apply wp_bind. rewrite <- EL, HS. apply wp_ret. destruct SM as (RS & CUE & VE). eapply wp_conseq.
    { apply IH; auto.
      - destruct EN as (q & sl' & E & _). exists q, sl'. auto.
      - congruence.
      - now rewrite VE.
      - clear - BL EI. revert EI. induction BL as [|j q sl' E B IB]; intros EI; [econstructor; [eauto|constructor]|]. econstructor; eauto.
      - split; [|discriminate]. intros ->. exfalso. eapply (no_cycle W WFW i (wf_reach _ WFW i DI)); eauto. }
    intros r s' (CX' & SM' & HR). split; auto. split; [eapply same_trans; [split; [exact RS|split; [exact CUE|exact VE]]|auto]|].
    destruct HR as [->|[HR|(HF & ->)]]; auto. right. right. split; auto. lia.
  - split; auto. split; auto. right. left. split; auto. apply N.leb_gt in HS. rewrite EL in HS. pose proof (join_len SEP l (nm :: nms)) as JL. lia.
Qed.
(** Resolving the names of [pth]. *)
Lemma pth_resolve n v W C i l F : n < NV -> vsim pc n v (Mnt W C (s_ro (v_s v)) (v_mask v)) -> cleanf pc W -> v_mnt v = true -> pth W i l F -> vlook n v ROOT l = Ok i /\ Forall pname l.
Proof.
  intros Hn SA CL MN P. unfold PosixPath2.vlook, look. rewrite MN.
  assert (APP : forall l2 a b, resolve (gs pc n) (ATOM pc n) MM TM v a l2 = Ok b -> forall c, resolve (gs pc n) (ATOM pc n) MM TM v a (l2 ++ [c]) = rstep (gs pc n) (ATOM pc n) MM TM v b c).
  { induction l2 as [|x l2 IL]; cbn; intros a b E c; [injection E as ->; destruct (rstep _ _ _ _ v b c); auto|]. destruct (rstep _ _ _ _ v a x); [auto|discriminate]. }
  induction P as [|i p sl k nm l F NR EI EN P [IH1 IH2]]; [split; [reflexivity|constructor]|]. pose proof (CL _ _ _ _ EN) as PN. split; [|apply Forall_app; auto].
  rewrite (APP _ _ _ IH1). unfold rstep. destruct PN as (A & B & D & E1 & E2). destruct (list_eq_dec N.eq_dec nm dot1); [congruence|]. destruct (list_eq_dec N.eq_dec nm dot2); [congruence|].
  change (ask (gs pc n) (ATOM pc n) MM TM v (CLookup p nm)) with (vask n v (CLookup p nm)). rewrite (proj2 (vfound_W pc PC n v W C _ _ p nm i Hn SA B)) by (exists k; auto). auto.
Qed.
(** The path of a directory of a volume. *)
Definition path_of (n : N) (l : list name) : str := prefix pc n ++ SEP :: join SEP l.
Lemma do_getcwd tid s : Ctx tid s -> exists n i l F, cwd_is tid s n i /\ n < NV /\ Forall pname l /\ (if v_mnt (p_v s n) then vlook n (p_v s n) ROOT l = Ok i else i = ROOT /\ l = []) /\
  forall size fuel, wp (red_getcwd pc tid size fuel) (fun r s' => Ctx tid s' /\ still s s' /\
    (r = (if lenN (path_of n l) + 1 <=? size then Ok (RStr (path_of n l)) else Err ERANGE) \/ ((fuel < F)%nat \/ size = 0) /\ r = Err EFUBAR)) s.
Proof.
  intros CX. destruct (slot_spec pc tid s (x_inv _ _ _ CX) (x_init _ _ _ CX) (x_reg _ _ _ CX)) as (k & SL & Hk & EK & CW).
  destruct (i_t _ _ (x_inv _ _ _ CX) (x_init _ _ _ CX) k Hk) as [T1 T2]. set (n := t_vol (p_t s k)) in *. set (i := t_ino (p_t s k)) in *. pose proof (x_v _ _ _ CX _ T1) as HV.
  assert (CWI : cwd_is tid s n i) by (exists k; auto).
  assert (LN : forall x, lenN (prefix pc n ++ SEP :: x) + 1 = lenN x + 1 + lenN (prefix pc n) + 1). { intros x. unfold lenN. rewrite app_length. cbn [length]. lia. }
  assert (FP : firstn (strlen (prefix pc n)) (prefix pc n) = prefix pc n).
  { pose proof (ok_pre _ PC n T1) as NZ. assert (E : strlen (prefix pc n) = length (prefix pc n)); [|rewrite E; apply firstn_all].
    apply strlen_nz. auto. }
  assert (MAIN : forall l F, (forall size fuel s1, Ctx tid s1 -> still s s1 -> p_cur s1 = n -> wp (cwd_loop pc fuel size i i (join SEP [])) (fun r s' => Ctx tid s' /\ same s1 s' /\
    (r = Ok (join SEP (l ++ [])) \/ r = Err ERANGE /\ size < lenN (join SEP (l ++ [])) + 1 \/ (fuel < F)%nat /\ r = Err EFUBAR)) s1) ->
   forall size fuel, wp (red_getcwd pc tid size fuel) (fun r s' => Ctx tid s' /\ still s s' /\
    (r = (if lenN (path_of n l) + 1 <=? size then Ok (RStr (path_of n l)) else Err ERANGE) \/ ((fuel < F)%nat \/ size = 0) /\ r = Err EFUBAR)) s).
  { intros l F H size fuel. unfold red_getcwd. apply wp_bind. unfold CwdGet. eapply wp_Act; eauto; [now rewrite SL|]. rewrite SL. cbn [fst snd]. fold n i. apply wp_bind.
    eapply wp_SetCur; eauto. intros s1 CX1 ST1 CU1. apply wp_bind. unfold store at 1. apply wp_check; intros HZ; [|split; auto; split; auto; right; split; auto; right; apply N.leb_gt in HZ; unfold lenN in HZ; cbn in HZ; lia]. apply wp_bind. eapply wp_conseq; [apply (H size fuel s1); auto|]. rewrite app_nil_r. intros r s2 (CX2 & SM2 & HR).
    assert (ST2 : still s s2) by (eapply still_trans; [exact ST1|apply same_still; auto]). unfold path_of.
    destruct HR as [->|[(-> & HL)|(HF & ->)]].
    - rewrite FP. apply wp_bind. change ([SEP] ++ join SEP l) with (SEP :: join SEP l). rewrite LN. apply wp_check; intros E; rewrite E; [|auto]. apply wp_bind. unfold store. rewrite LN, E. apply wp_ret. apply wp_ret. auto.
    - split; auto. split; auto. left. rewrite LN. destruct (N.leb_spec (lenN (join SEP l) + 1 + lenN (prefix pc n) + 1) size); [lia|auto].
    - split; [auto|]. split; [auto|]. right. split; [left; auto|auto]. }
  destruct T2 as [T2|[MN T2]].
  - exists n, i, [], O. split; auto. split; auto. split; [constructor|]. split.
    + rewrite T2. destruct (v_mnt (p_v s n)) eqn:MN; auto. unfold PosixPath2.vlook, look. rewrite MN. reflexivity.
    + apply MAIN. intros size fuel s1 CX1 _ _. rewrite T2. destruct fuel; cbn [cwd_loop]; rewrite N.eqb_refl; apply wp_ret; (split; auto; split; [apply same_refl|]; left; reflexivity).
  - destruct (VOK_W pc PC _ _ T1 HV MN) as (W & C & SA & CL & _). pose proof (vWF pc PC _ _ _ _ _ _ T1 SA) as WFW. pose proof (proj1 (vdir_W pc PC n _ W C _ _ i T1 SA) T2) as DI.
    destruct (pth_ex W WFW i (wf_reach _ WFW i DI)) as (l & F & P). destruct (pth_resolve n _ W C i l F T1 SA CL MN P) as (RS & FA).
    exists n, i, l, F. split; auto. split; auto. split; auto. split; [now rewrite MN|]. apply MAIN. intros size fuel s1 CX1 (_ & V1) CU1.
    eapply (wp_cwdloop tid W C n (p_v s n)); eauto; [constructor|tauto].
Qed.
End Calls7.
