(** Files and directories as seen through the calls: C16, C17, C19, C20, C21, C22.

    [ask v c] is the result of the reading call [c] on the volume [v] (it changes nothing, see [shows]). *)
From Verif Require Import Base Count FsState FsImap FsInode FsData FsTree FsImapProof FsInv FsStep FsBranch FsRead FsWrite FsVol FsVol2 FsVol3 FsVol4 FsWp FsDir FsDirP FsCore FsWr FsRo FsSpec FsSpecP FsSpecN FsCoreP FsCoreP2 FsCoreP3 FsCoreP4 FsCoreP5 FsMach FsVolume FsVolumeP FsReach FsKeep PropFs.
Require Import Sorted.
Ltac Zify.zify_post_hook ::= idtac.

Lemma pair_eq_dec (a b : N * name) : {a = b} + {a <> b}.
Proof. decide equality; [apply list_eq_dec|]; apply N.eq_dec. Defined.

(** What a history of calls makes of a file [i] of size [fst x] and bytes [snd x]. *)
Definition replay1 (i : N) (x : N * (N -> N)) (e : event) : N * (N -> N) :=
  match e with
  | ECall (CWrite j start _ src) (Ok (ONum n)) =>
    if (j =? i) && (0 <? n) then
      (N.max (fst x) (start + n),
       fun p => if (start <=? p) && (p <? start + n) then src (p - start) else if p <? fst x then snd x p else 0)
    else x
  | ECall (CTruncate j size) (Ok _) => if j =? i then (size, fun p => if p <? N.min size (fst x) then snd x p else 0) else x
  | _ => x
  end.
Definition replay (i : N) (t : list event) (x : N * (N -> N)) : N * (N -> N) := fold_left (replay1 i) t x.

(** What it makes of the map from names (directory, component) to inode numbers. *)
Definition name_eqb (a b : N * name) : bool := if pair_eq_dec a b then true else false.
Definition nset (m : N * name -> option N) (a : N * name) (o : option N) : N * name -> option N := fun b => if name_eqb b a then o else m b.
Definition rename1 (m : N * name -> option N) (a b : N * name) : N * name -> option N :=
  match m a, m b with
  | Some i, Some j => if i =? j then m else nset (nset m a None) b (Some i)
  | o, _ => nset (nset m a None) b o
  end.
Definition names1 (m : N * name -> option N) (e : event) : N * name -> option N :=
  match e with
  | ECall (CCreate p nm _) (Ok (ONum i)) => nset m (p, nm) (Some i)
  | ECall (CLink p nm i) (Ok _) => nset m (p, nm) (Some i)
  | ECall (CUnlink p nm) (Ok _) => nset m (p, nm) None
  | ECall (CRename sp sn dp dn) (Ok _) => rename1 m (sp, sn) (dp, dn)
  | _ => m
  end.
Definition names (t : list event) (m : N * name -> option N) : N * name -> option N := fold_left names1 t m.

Definition oz : oracle := (0, fun _ => BJunk).

Section Defs.
Variable g : cfg.
Variable atom : bool.
Variable MM TM : N.
Definition ask (v : vol) (c : call) : res out := fst (fst (exec g atom MM TM c oz oz v)).

(** The file [i] has size [sz] and byte [b p] at every position [p]: every read returns that. *)
Definition content (v : vol) (i sz : N) (b : N -> N) : Prop :=
  forall start len, exists f, ask v (CRead i start len) = Ok (ORead (N.min len (sz - start), f)) /\
    forall x, x < N.min len (sz - start) -> f x = b (start + x).

(** Enumeration of a directory by repeated calls, starting at a position. *)
Inductive walk (v : vol) (p : N) : N -> list (name * N) -> Prop :=
| W_end k k' : ask v (CDirRead p k) = Ok (OEnt (None, k')) -> walk v p k []
| W_next k nm i k' L : ask v (CDirRead p k) = Ok (OEnt (Some (nm, i), k')) -> walk v p k' L -> walk v p k ((nm, i) :: L).

(** Following parents from [i] leads to [a]. *)
Inductive climbs (v : vol) (a : N) : N -> Prop :=
| C_here : climbs v a a
| C_up i p : ask v (CDirParent i) = Ok (ONum p) -> climbs v a p -> climbs v a i.

Definition is_dir (v : vol) (i : N) : Prop := exists nl sz bl, ask v (CStat i) = Ok (OStat (true, nl, sz, bl)).
Definition is_file (v : vol) (i : N) : Prop := exists nl sz bl, ask v (CStat i) = Ok (OStat (false, nl, sz, bl)).
(** Position [k] of directory [d] holds the name [nm] for [i]. *)
Definition at_pos (v : vol) (d k : N) (nm : name) (i : N) : Prop := ask v (CDirRead d k) = Ok (OEnt (Some (nm, i), k + 1)).
Definition found (v : vol) (p : N) (nm : name) (i : N) : Prop := ask v (CLookup p nm) = Ok (ONum i).
Definition absent (v : vol) (p : N) (nm : name) : Prop := ask v (CLookup p nm) = Err ENOENT.
(** Every reading call answers as for the same file system. *)
Definition unchanged (v v' : vol) : Prop := exists F, shows g atom MM TM v F /\ shows g atom MM TM v' F.
End Defs.

Section Work.
Variable g : cfg.
Variable atom : bool.
Variable MM TM TD : N.
(** The events [t] lead from [v] to [v']; the volume stays mounted, is not rolled back, and [P] holds
    of every state on the way. *)
Inductive worked (P : vol -> Prop) : vol -> list event -> vol -> Prop :=
| Wk_nil v : v_mnt v = true -> P v -> worked P v [] v
| Wk_call v c r v1 t v2 : v_mnt v = true -> P v -> c <> CRollback -> c <> CUnmount ->
    step g atom MM TM TD v (Some (ECall c r)) v1 -> worked P v1 t v2 -> worked P v (ECall c r :: t) v2
| Wk_back v v1 t v2 : P v -> step g atom MM TM TD v None v1 -> worked P v1 t v2 -> worked P v t v2.
End Work.

Section P.
Variable g : cfg.
Hypothesis OK : cfg_ok g.
Variable atom : bool.
Variable MM TM TD : N.
Set Default Proof Using "All".
Notation exec := (exec g atom MM TM).
Notation step := (step g atom MM TM TD).
Notation reach := (reach g atom MM TM TD).
Notation Sim := (Sim g atom).
Notation ask := (ask g atom MM TM).
Notation content := (content g atom MM TM).
Notation walk := (walk g atom MM TM).
Notation climbs := (climbs g atom MM TM).
Notation is_dir := (is_dir g atom MM TM).
Notation is_file := (is_file g atom MM TM).
Notation at_pos := (at_pos g atom MM TM).
Notation found := (found g atom MM TM).
Notation absent := (absent g atom MM TM).
Notation unchanged := (unchanged g atom MM TM).
Notation op_ok := (op_ok (NMAX g) (INODE_SIZE_MAX g) (ICNT g)).
Notation op_err := (op_err (NMAX g) (INODE_SIZE_MAX g) (ICNT g)).

Lemma ask_ok v W C ro mask c : Sim v (Mnt W C ro mask) -> reads c = true -> legal c -> read_ok (NMAX g) c W (ask v c).
Proof. intros S R L. unfold PropNs.ask. destruct (read_call g OK atom MM TM TD c oz oz v W C ro mask R L S) as (r & t & E & _ & Q). rewrite E. exact Q. Qed.
(** Reading calls do not depend on the oracles and change nothing. *)
Lemma ask_exec v W C ro mask c o1 o2 : Sim v (Mnt W C ro mask) -> reads c = true -> legal c -> exists t, exec c o1 o2 v = (ask v c, v, t).
Proof.
  intros S R L. destruct (read_call g OK atom MM TM TD c o1 o2 v W C ro mask R L S) as (r & t & E & _). exists t. rewrite E. f_equal. f_equal.
  unfold PropNs.ask. replace (exec c oz oz v) with (exec c o1 o2 v); [rewrite E; auto|]. destruct c; try discriminate R; reflexivity.
Qed.
Lemma mod_sim v c r v' : reach v -> step v (Some (ECall c r)) v' -> v_mnt v = true ->
  exists W C, Sim v (Mnt W C (s_ro (v_s v)) (v_mask v)) /\ exists a', astep (NMAX g) (INODE_SIZE_MAX g) (ICNT g) MM TM TD (Mnt W C (s_ro (v_s v)) (v_mask v)) (ECall c r) a' /\ Sim v' a'.
Proof.
  intros R S MN. destruct (reach_mnt g OK atom MM TM TD v R MN) as (W & C & SA). exists W, C. split; auto. apply (step_sim g OK atom MM TM TD _ _ _ _ SA S).
Qed.
Lemma step_mnt v c r v' : step v (Some (ECall c (Ok r))) v' -> modifies c = true -> v_mnt v = true.
Proof using.
  intros S MC. inversion S; subst. destruct (v_mnt v) eqn:E; auto. exfalso.
  match goal with H : exec _ _ _ _ = _ |- _ => rename H into EX end.
  destruct c; try discriminate MC; cbn [FsVolume.exec] in EX; unfold ounit, omap, RedCoreCreate, RedCoreLink, RedCoreUnlink, RedCoreRename, RedCoreFileWrite, RedCoreFileTruncate, autocommit, pbind at 1, guard in EX; rewrite E in EX; discriminate.
Qed.
(** A successful modifying call. *)
Lemma ok_sim v c r v' : reach v -> step v (Some (ECall c (Ok r))) v' -> modifies c = true ->
  exists W W' C C' mask, Sim v (Mnt W C false mask) /\ Sim v' (Mnt W' C' false mask) /\ op_ok c r W W'.
Proof.
  intros R S MC. pose proof (step_mnt v c r v' S MC) as MN. destruct (mod_sim v c (Ok r) v' R S MN) as (W & C & SA & a' & AS & SA').
  inversion AS; subst; try discriminate.
  - repeat match goal with H : _ = s_ro (v_s v) |- _ => rewrite <- H in * end. exists W, W', C. eauto 8.
  - destruct c; discriminate.
Qed.
(** A failing one: the visible state is the same. *)
Lemma err_sim v c e v' : reach v -> step v (Some (ECall c (Err e))) v' -> modifies c = true -> v_mnt v = true ->
  exists W C C' ro mask, Sim v (Mnt W C ro mask) /\ Sim v' (Mnt W C' ro mask) /\ (ro = false /\ op_err c W e \/ ro = true /\ e = EROFS).
Proof.
  intros R S MC MN. destruct (mod_sim v c (Err e) v' R S MN) as (W & C & SA & a' & AS & SA').
  inversion AS; subst; try discriminate.
  - repeat match goal with H : _ = s_ro (v_s v) |- _ => rewrite <- H in * end. exists W, C, C1, false, (v_mask v). auto.
  - repeat match goal with H : _ = s_ro (v_s v) |- _ => rewrite <- H in * end. exists W, C, C, true, (v_mask v). auto.
  - destruct c; discriminate.
  - match goal with H : _ = CTransact \/ _ |- _ => destruct H; subst; discriminate end.
Qed.
Lemma Sim_WF v W C ro mask : Sim v (Mnt W C ro mask) -> WF W.
Proof. intros ((C0 & D0 & X) & _). apply X. Qed.
Lemma Sim_zero v W C ro mask i nl sz b : Sim v (Mnt W C ro mask) -> W i = Some (AFile nl sz b) -> sz <= INODE_SIZE_MAX g /\ forall x, sz <= x -> b x = 0.
Proof.
  intros ((C0 & D0 & X) & _) E. destruct (x_w _ _ _ _ _ _ _ X) as (V & (pm & K & VE & _) & HR).
  destruct (REP_file g OK V W i nl sz b HR E) as (a & Va & _ & _ & SZ & BY). specialize (VE i). rewrite Va in VE. unfold absV in VE.
  destruct (FsInv.T g (set_ro false (v_s v)) i) as [io|] eqn:TI; cbn in VE; [|tauto]. destruct VE as (E1 & _ & _ & _ & E2). cbn [a_size a_byte absI] in *.
  destruct (k_fit K i io TI (T_ne _ _ _ _ TI)) as [LI _]. split; [destruct LI as [_ L1 L2]; lia|].
  intros x Hx. rewrite <- BY, <- E2. unfold vb. destruct (N.ltb_spec x (i_size io)); auto. lia.
Qed.
Lemma Sim_entry v W C ro mask d k nm i : Sim v (Mnt W C ro mask) -> entry W d k nm i -> nok g nm /\ 0 < i.
Proof.
  intros ((C0 & D0 & X) & _) (q & sl & E & S). destruct (x_w _ _ _ _ _ _ _ X) as (V & _ & HR).
  destruct (REP_dir g OK V W d q sl HR E) as (a & n & _ & _ & _ & DR). destruct (dr_some _ _ _ _ DR k nm i S) as (_ & A & B & _). split; auto. lia.
Qed.
Lemma Sim_slots v W C ro mask p q sl : Sim v (Mnt W C ro mask) -> W p = Some (ADir q sl) -> exists n, forall k nm i, sl k = Some (nm, i) -> k < n.
Proof.
  intros ((C0 & D0 & X) & _) E. destruct (x_w _ _ _ _ _ _ _ X) as (V & _ & HR).
  destruct (REP_dir g OK V W p q sl HR E) as (a & n & _ & _ & _ & DR). exists n. intros k nm i S. apply (dr_some _ _ _ _ DR k nm i S).
Qed.

(** * Translation of answers *)
Section Tr.
Variables (v : vol) (W C : fs) (ro : bool) (mask : N).
Hypothesis S : Sim v (Mnt W C ro mask).
Lemma content_W i sz b : content v i sz b <-> exists nl b', W i = Some (AFile nl sz b') /\ forall x, x < sz -> b' x = b x.
Proof.
  split.
  - intros H. assert (A : exists nl sz' b', W i = Some (AFile nl sz' b')).
    { destruct (H 0 0) as (f & E & _). pose proof (ask_ok _ _ _ _ _ (CRead i 0 0) S eq_refl I) as Q. rewrite E in Q. destruct Q as (nl & sz' & b' & Q & _). eauto. }
    destruct A as (nl & sz' & b' & E). exists nl, b'. assert (SZ : sz' = sz).
    { destruct (H 0 (sz + sz' + 1)) as (f & E1 & _). pose proof (ask_ok _ _ _ _ _ (CRead i 0 (sz + sz' + 1)) S eq_refl I) as Q. rewrite E1 in Q. destruct Q as (? & ? & ? & Q & Q1 & _).
      rewrite E in Q. injection Q as <- <- <-. lia. }
    subst sz'. split; auto. intros x Hx. destruct (H x 1) as (f & E1 & E2). pose proof (ask_ok _ _ _ _ _ (CRead i x 1) S eq_refl I) as Q. rewrite E1 in Q. destruct Q as (? & ? & ? & Q & Q1 & Q2).
    rewrite E in Q. injection Q as <- <- <-. specialize (E2 0). specialize (Q2 0). rewrite N.add_0_r in *. rewrite <- E2, <- Q2 by lia. auto.
  - intros (nl & b' & E & B) start len. pose proof (ask_ok _ _ _ _ _ (CRead i start len) S eq_refl I) as Q. cbn in Q.
    destruct (ask v (CRead i start len)) as [[| | |[n f]| |]|e]; try tauto.
    + destruct Q as (? & ? & ? & Q & Q1 & Q2). rewrite E in Q. injection Q as <- <- <-. subst n. exists f. split; auto. intros x Hx. rewrite Q2 by auto. apply B. lia.
    + exfalso. destruct Q as [[_ Q]|[_ (? & ? & Q)]]; congruence.
Qed.
Lemma is_dir_W i : is_dir v i <-> isdir W i.
Proof.
  pose proof (ask_ok _ _ _ _ _ (CStat i) S eq_refl I) as Q. unfold PropNs.is_dir. cbn in Q. split.
  - intros (nl & sz & bl & E). rewrite E in Q. destruct Q as [(_ & _ & Q)|(Q & _)]; [auto|discriminate].
  - intros D. destruct (ask v (CStat i)) as [[| |[[[d nl] sz] bl]| | |]|e]; try tauto.
    + destruct Q as [(-> & _)|(-> & b & Q)]; [eauto|]. destruct D as (? & ? & D). congruence.
    + destruct Q as (_ & Q). destruct D as (? & ? & D). congruence.
Qed.
Lemma is_file_W i : is_file v i <-> isfile W i.
Proof.
  pose proof (ask_ok _ _ _ _ _ (CStat i) S eq_refl I) as Q. unfold PropNs.is_file. cbn in Q. split.
  - intros (nl & sz & bl & E). rewrite E in Q. destruct Q as [(Q & _)|(_ & b & Q)]; [discriminate|]. exists nl, sz, b. auto.
  - intros D. destruct (ask v (CStat i)) as [[| |[[[d nl] sz] bl]| | |]|e]; try tauto.
    + destruct Q as [(-> & _ & Q)|(-> & b & Q)]; [exfalso; eapply dir_file; eauto|eauto].
    + destruct Q as (_ & Q). destruct D as (? & ? & ? & D). congruence.
Qed.
Lemma stat_W i nl sz bl : ask v (CStat i) = Ok (OStat (false, nl, sz, bl)) -> exists b, W i = Some (AFile nl sz b).
Proof.
  intros E. pose proof (ask_ok _ _ _ _ _ (CStat i) S eq_refl I) as Q. rewrite E in Q. cbn in Q. destruct Q as [(Q & _)|(_ & b & Q)]; [discriminate|eauto].
Qed.
Lemma W_stat i nl sz b : W i = Some (AFile nl sz b) -> exists bl, ask v (CStat i) = Ok (OStat (false, nl, sz, bl)).
Proof.
  intros E. pose proof (ask_ok _ _ _ _ _ (CStat i) S eq_refl I) as Q. cbn in Q. destruct (ask v (CStat i)) as [[| |[[[d nl'] sz'] bl]| | |]|e]; try tauto.
  - destruct Q as [(_ & _ & (? & ? & Q))|(-> & b' & Q)]; [congruence|]. rewrite E in Q. injection Q as <- <- <-. eauto.
  - destruct Q. congruence.
Qed.
Lemma absent_stat i : ask v (CStat i) = Err EBADF <-> W i = None.
Proof.
  pose proof (ask_ok _ _ _ _ _ (CStat i) S eq_refl I) as Q. cbn in Q. split; intros E.
  - rewrite E in Q. tauto.
  - destruct (ask v (CStat i)) as [[| |[[[d nl'] sz'] bl]| | |]|e]; try tauto.
    + destruct Q as [(_ & _ & (? & ? & Q))|(-> & b' & Q)]; congruence.
    + destruct Q as (-> & _). auto.
Qed.
Lemma found_W p nm i : nozero nm -> found v p nm i <-> named W p nm i.
Proof.
  intros NZ. pose proof (ask_ok _ _ _ _ _ (CLookup p nm) S eq_refl NZ) as Q. unfold PropNs.found. cbn in Q. split; intros E.
  - rewrite E in Q. auto.
  - destruct E as (k & E). pose proof (Sim_entry _ _ _ _ _ _ _ _ _ S E) as (NK & _). destruct (ask v (CLookup p nm)) as [[|n| | | |]|e]; try tauto.
    + f_equal. f_equal. eapply named_fun; eauto; [eapply Sim_WF; eauto|]. exists k; auto.
    + exfalso. destruct Q as [[(_ & Q)|(_ & Q)]|[[(_ & Q)|(_ & Q)]|(_ & _ & Q)]].
      * destruct E as (? & ? & E & _). congruence.
      * eapply dir_file; eauto. eapply entry_dir; eauto.
      * destruct NK. lia.
      * destruct NK as ((? & ?) & _). lia.
      * eapply Q. exists k. eauto.
Qed.
Lemma absent_W p nm : nozero nm -> isdir W p -> 0 < nlen nm <= NMAX g -> (absent v p nm <-> forall i, ~ named W p nm i).
Proof.
  intros NZ D L. pose proof (ask_ok _ _ _ _ _ (CLookup p nm) S eq_refl NZ) as Q. unfold PropNs.absent. cbn in Q. split; intros E.
  - rewrite E in Q. destruct Q as [[(Q & _)|(Q & _)]|[[(Q & _)|(Q & _)]|(_ & _ & Q)]]; try discriminate. exact Q.
  - destruct (ask v (CLookup p nm)) as [[|n| | | |]|e]; try tauto.
    + exfalso. eapply E; eauto.
    + destruct Q as [[(_ & Q)|(_ & Q)]|[[(_ & Q)|(_ & Q)]|(-> & _ & Q)]]; auto; exfalso; try lia.
      * destruct D as (? & ? & D). congruence.
      * eapply dir_file; eauto.
Qed.
Lemma at_pos_W d k nm i : at_pos v d k nm i <-> entry W d k nm i.
Proof.
  pose proof (ask_ok _ _ _ _ _ (CDirRead d k) S eq_refl I) as Q. unfold PropNs.at_pos. cbn in Q. split; intros E.
  - rewrite E in Q. destruct Q as (l & A & B & Q & _). replace k with l by lia. auto.
  - destruct (ask v (CDirRead d k)) as [[| | | |[[[nm' j]|] k']|]|e]; try tauto.
    + destruct Q as (l & A & B & Q & Q'). assert (l = k). { destruct (N.eq_dec l k); auto. exfalso. apply (Q' k nm i); auto. lia. } subst l.
      destruct (entry_fun _ _ _ _ _ _ _ E Q). subst. auto.
    + exfalso. destruct Q as (_ & Q). eapply (Q k); eauto. lia.
    + exfalso. destruct Q as [(_ & Q)|(_ & Q)]; [|eapply dir_file; eauto; eapply entry_dir; eauto]. destruct E as (? & ? & E & _). congruence.
Qed.
Lemma parent_W i p : ask v (CDirParent i) = Ok (ONum p) <-> exists sl, W i = Some (ADir p sl).
Proof.
  pose proof (ask_ok _ _ _ _ _ (CDirParent i) S eq_refl I) as Q. cbn in Q. destruct (wf_root W (Sim_WF _ _ _ _ _ S)) as (sr & RT). split; intros E.
  - rewrite E in Q. destruct Q as [(-> & ->)|(_ & Q)]; eauto.
  - destruct E as (sl & E). destruct (ask v (CDirParent i)) as [[|n| | | |]|e]; try tauto.
    + f_equal. f_equal. destruct Q as [(-> & ->)|(_ & (s & Q))]; congruence.
    + exfalso. destruct Q as [(_ & Q)|(_ & (? & ? & ? & Q))]; congruence.
Qed.
Lemma climbs_W a i : climbs v a i <-> Below W a i.
Proof.
  split; induction 1; try constructor.
  - apply parent_W in H. destruct H as (sl & H). eapply B_step; eauto.
  - eapply C_up; [|eauto]. apply parent_W. eauto.
Qed.
End Tr.

(** * One call *)
Lemma work_step v c r v1 : reach v -> v_mnt v = true -> c <> CRollback -> c <> CUnmount -> step v (Some (ECall c r)) v1 ->
  exists W C ro mask W' C' mask', Sim v (Mnt W C ro mask) /\ Sim v1 (Mnt W' C' ro mask') /\
   (modifies c = true /\ (exists x, r = Ok x /\ op_ok c x W W') \/ W' = W /\ (modifies c = true -> exists e, r = Err e)).
Proof.
  intros R MN N1 N2 S. destruct (mod_sim v c r v1 R S MN) as (W & C & SA & a' & AS & SA'). exists W, C, (s_ro (v_s v)), (v_mask v).
  inversion AS; subst; try congruence; repeat match goal with H : _ = s_ro (v_s v) |- _ => rewrite <- H in * end; try (do 3 eexists; split; [exact SA|split; [exact SA'|]]; first [left; eauto; fail|right; split; [auto|intros; first [discriminate|eauto]]]).
  destruct c; discriminate.
Qed.
Lemma back_sim v v1 W C ro mask : Sim v (Mnt W C ro mask) -> step v None v1 -> Sim v1 (Mnt W C ro mask).
Proof.
  intros ((C0 & D0 & X) & B & D) S. inversion S; subst. split; [|split; auto]. exists C0, D0. eapply (back_x g OK atom MM TM TD); eauto.
Qed.
Lemma steps1 v e v' : reach v -> step v (Some e) v' -> reach v'.
Proof using. apply reach_step. Qed.
Lemma steps0 v v' : reach v -> step v None v' -> reach v'.
Proof using. intros R S. eapply reach_steps; eauto. eapply Ss_back; eauto. apply Ss_nil. Qed.
Lemma worked_reach Q v t v' : worked g atom MM TM TD Q v t v' -> reach v -> reach v' /\ v_mnt v' = true.
Proof using. induction 1; intros R; auto; apply IHworked; [eapply steps1|eapply steps0]; eauto. Qed.

(** * C16 *)
Lemma content_ext v i sz b b' : (forall p, p < sz -> b p = b' p) -> content v i sz b -> content v i sz b'.
Proof using.
  intros H K start len. destruct (K start len) as (f & A & B). exists f. split; auto. intros x Hx. rewrite B by auto. apply H. lia.
Qed.
(** Every file has a content, of the size that stat reports. *)
Theorem C16_content v i nl sz bl : reach v -> v_mnt v = true -> ask v (CStat i) = Ok (OStat (false, nl, sz, bl)) ->
  sz <= INODE_SIZE_MAX g /\ exists b, content v i sz b.
Proof.
  intros R MN ST. destruct (reach_mnt g OK atom MM TM TD v R MN) as (W & C & SA). destruct (stat_W _ _ _ _ _ SA _ _ _ _ ST) as (b & E).
  split; [eapply Sim_zero; eauto|]. exists b. apply (content_W _ _ _ _ _ SA). eauto.
Qed.
(** A content determines the size that stat reports. *)
Theorem C16_size v i sz b : reach v -> v_mnt v = true -> content v i sz b -> exists nl bl, ask v (CStat i) = Ok (OStat (false, nl, sz, bl)).
Proof.
  intros R MN CT. destruct (reach_mnt g OK atom MM TM TD v R MN) as (W & C & SA). apply (content_W _ _ _ _ _ SA) in CT. destruct CT as (nl & b' & E & _).
  exists nl. eapply W_stat; eauto.
Qed.
(** A new file is empty and has a number that was not in use. *)
Theorem C16_create v p nm i v' : reach v -> step v (Some (ECall (CCreate p nm false) (Ok (ONum i)))) v' ->
  ask v (CStat i) = Err EBADF /\ content v' i 0 (fun _ => 0).
Proof.
  intros R S. destruct (ok_sim v _ _ v' R S eq_refl) as (W & W' & C & C' & mask & SA & SA' & O). destruct O as (j & X & _ & _ & _ & O). injection X as <-.
  split; [apply (absent_stat _ _ _ _ _ SA); apply O|]. apply (content_W _ _ _ _ _ SA'). exists 1, (fun _ => 0). split; auto.
  destruct O as (_ & Fi & P & _ & k & _ & ->). assert (N : i <> p) by (intros ->; destruct P as (? & ? & ?); congruence).
  assert (P' : isdir (upd W i (Some (newnode false p))) p). { destruct P as (q & sl & P). exists q, sl. rewrite upd_other; auto. }
  apply (set_slot_at _ p k (Some (nm, i)) i P'). apply upd_same.
Qed.
(** One write: how much is written, the new size and the new bytes. *)
Theorem C16_write v i start len src r v' sz b : reach v -> step v (Some (ECall (CWrite i start len src) (Ok r))) v' -> content v i sz b ->
  exists n, r = ONum n /\ n <= len /\ (0 < len -> 0 < n) /\ (0 < n -> start + n <= INODE_SIZE_MAX g) /\
    content v' i (if n =? 0 then sz else N.max sz (start + n))
      (fun p => if (start <=? p) && (p <? start + n) then src (p - start) else if p <? sz then b p else 0).
Proof.
  intros R S CT. destruct (ok_sim v _ _ v' R S eq_refl) as (W & W' & C & C' & mask & SA & SA' & O). destruct O as (n & X & O). exists n. split; auto.
  apply (content_W _ _ _ _ _ SA) in CT. destruct CT as (nl & b' & E & B). destruct (Sim_zero _ _ _ _ _ _ _ _ _ SA E) as (_ & Z).
  destruct (N.eqb_spec len 0) as [->|NL].
  - destruct O as (-> & -> & _ & _). split; [lia|]. split; [lia|]. split; [lia|]. apply (content_W _ _ _ _ _ SA'). change (0 =? 0) with true. cbv iota. exists nl, b'. split; auto. intros x Hx.
    replace ((start <=? x) && (x <? start + 0)) with false. 2:{ symmetry. apply andb_false_iff. destruct (N.leb_spec start x); auto. right. apply N.ltb_ge. lia. }
    destruct (N.ltb_spec x sz); [auto|]. lia.
  - destruct O as (L & (nl1 & sz1 & b1 & E1 & ->)). rewrite E in E1. injection E1 as <- <- <-. split; [lia|]. split; [lia|]. split; [lia|].
    apply (content_W _ _ _ _ _ SA'). exists nl. eexists. replace (n =? 0) with false by (symmetry; apply N.eqb_neq; lia). split; [apply upd_same|]. intros x Hx. cbv beta.
    destruct ((start <=? x) && (x <? start + n)); auto. destruct (N.ltb_spec x sz); auto.
Qed.
(** One truncation. *)
Theorem C17_truncate v i size r v' sz b : reach v -> step v (Some (ECall (CTruncate i size) (Ok r))) v' -> content v i sz b ->
  content v' i size (fun p => if p <? N.min size sz then b p else 0).
Proof.
  intros R S CT. destruct (ok_sim v _ _ v' R S eq_refl) as (W & W' & C & C' & mask & SA & SA' & O). destruct O as (_ & _ & (nl1 & sz1 & b1 & E1 & ->)).
  apply (content_W _ _ _ _ _ SA) in CT. destruct CT as (nl & b' & E & B). rewrite E in E1. injection E1 as <- <- <-. destruct (Sim_zero _ _ _ _ _ _ _ _ _ SA E) as (_ & Z).
  apply (content_W _ _ _ _ _ SA'). exists nl. eexists. split; [apply upd_same|]. intros x Hx. cbv beta. replace (x <? size) with true by (symmetry; apply N.ltb_lt; lia).
  destruct (N.ltb_spec x (N.min size sz)); [apply B; lia|apply Z; lia].
Qed.
(** All other calls, successful or not, leave the file as it is (or remove it). *)
Lemma content_other v c r v1 i sz b : reach v -> v_mnt v = true -> c <> CRollback -> c <> CUnmount -> step v (Some (ECall c r)) v1 ->
  match c with CWrite j _ _ _ | CTruncate j _ => j <> i \/ (exists e, r = Err e) | _ => True end -> is_file v1 i -> content v i sz b -> content v1 i sz b.
Proof.
  intros R MN N1 N2 S H HF CT. destruct (work_step v c r v1 R MN N1 N2 S) as (W & C & ro & mask & W' & C' & mask' & SA & SA' & O).
  apply (content_W _ _ _ _ _ SA) in CT. apply (content_W _ _ _ _ _ SA'). destruct CT as (nl & b' & E & B).
  apply (is_file_W _ _ _ _ _ SA') in HF.
  assert (K : keeps W W' -> exists nl b0, W' i = Some (AFile nl sz b0) /\ forall x, x < sz -> b0 x = b x).
  { intros K. destruct (K i nl sz b' E) as [E'|[nl' E']]; [destruct HF as (? & ? & ? & HF); congruence|eauto]. }
  destruct O as [(MC & (x & -> & O))|(-> & _)]; [|eauto]. destruct c; try discriminate MC; cbn in O.
  - destruct O as (j & _ & _ & _ & _ & O). apply K. eapply keeps_create; eauto.
  - destruct O as (_ & _ & _ & O). apply K. eapply keeps_link; eauto.
  - destruct O as (_ & O). apply K. eapply keeps_unlink; eauto.
  - destruct O as (_ & O). apply K. eapply keeps_rename; eauto.
  - destruct H as [H|[e H]]; [|discriminate]. destruct O as (n & _ & O). destruct (len =? 0); [destruct O as (_ & -> & _); eauto|]. destruct O as (_ & (? & ? & ? & _ & ->)).
    exists nl, b'. rewrite upd_other by auto. auto.
  - destruct H as [H|[e H]]; [|discriminate]. destruct O as (_ & _ & (? & ? & ? & _ & ->)). exists nl, b'. rewrite upd_other by auto. auto.
Qed.
(** The size and bytes of a file after any history during which it exists are those obtained from
    the writes and truncations of that file alone. *)
Theorem C16_history i : forall v t v', worked g atom MM TM TD (fun u => is_file u i) v t v' -> reach v -> forall sz b, content v i sz b ->
  content v' i (fst (replay i t (sz, b))) (snd (replay i t (sz, b))).
Proof.
  induction 1 as [v MN F|v c r v1 t v2 MN F N1 N2 S WK IH|v v1 t v2 F S WK IH]; intros R sz b CT; [exact CT| |].
  - assert (R1 : reach v1) by (eapply steps1; eauto).
    assert (F1 : is_file v1 i) by (inversion WK; auto).
    assert (G : content v1 i (fst (replay1 i (sz, b) (ECall c r))) (snd (replay1 i (sz, b) (ECall c r)))).
    { assert (K : replay1 i (sz, b) (ECall c r) = (sz, b) -> match c with CWrite j _ _ _ | CTruncate j _ => j <> i \/ (exists e, r = Err e) | _ => True end -> content v1 i (fst (replay1 i (sz, b) (ECall c r))) (snd (replay1 i (sz, b) (ECall c r)))).
      { intros -> H. cbn [fst snd]. apply (content_other v c r v1 i sz b); auto. }
      destruct c; try (apply K; auto; fail).
      - destruct r as [x|e]; [|apply K; [auto|eauto]]. destruct (N.eq_dec i0 i) as [->|N].
        2:{ apply K; auto. unfold replay1. destruct x; auto. apply N.eqb_neq in N. rewrite N. auto. }
        destruct (C16_write v i start len src x v1 sz b R S CT) as (n & -> & _ & _ & _ & C1). unfold replay1. rewrite N.eqb_refl. cbn [andb].
        destruct (N.eqb_spec n 0) as [->|NN]; [change (0 <? 0) with false; cbv iota|replace (0 <? n) with true by (symmetry; apply N.ltb_lt; lia)]; cbn [fst snd]; [|exact C1].
        eapply content_ext; [|exact C1]. intros p Hp. cbv beta.
        replace ((start <=? p) && (p <? start + 0)) with false. 2:{ symmetry. apply andb_false_iff. destruct (N.leb_spec start p); auto. right. apply N.ltb_ge. lia. }
        replace (p <? sz) with true by (symmetry; apply N.ltb_lt; lia). auto.
      - destruct r as [x|e]; [|apply K; [auto|eauto]]. destruct (N.eq_dec i0 i) as [->|N].
        2:{ apply K; auto. unfold replay1. apply N.eqb_neq in N. rewrite N. auto. }
        unfold replay1. rewrite N.eqb_refl. cbn [fst snd]. apply (C17_truncate v i size x v1 sz b); auto. }
    unfold replay. cbn [fold_left]. fold (replay i t (replay1 i (sz, b) (ECall c r))). destruct (replay1 i (sz, b) (ECall c r)) as [sz1 b1]. apply IH; auto.
  - apply IH; [eapply steps0; eauto|]. inversion WK; subst; try (destruct (reach_mnt g OK atom MM TM TD v R) as (W & C & SA); [inversion S; auto|];
      apply (content_W _ _ _ _ _ SA) in CT; apply (content_W _ _ _ _ _ (back_sim _ _ _ _ _ _ SA S)); exact CT).
Qed.
(** * C17: positions beyond a truncation read as zero until they are written. *)
Definition writes_at (i p : N) (e : event) : Prop :=
  match e with ECall (CWrite j start _ _) (Ok (ONum n)) => j = i /\ start <= p < start + n | _ => False end.
Theorem C17_extension v i size r v1 t v2 sz b p : reach v -> is_file v i -> step v (Some (ECall (CTruncate i size) (Ok r))) v1 ->
  worked g atom MM TM TD (fun u => is_file u i) v1 t v2 -> size <= p -> (forall e, In e t -> ~ writes_at i p e) -> content v2 i sz b -> p < sz -> b p = 0.
Proof.
  intros R HF S WK Hp NW CT Hsz. assert (MN : v_mnt v = true) by (eapply step_mnt; eauto).
  destruct HF as (nl & sz0 & bl & ST). destruct (C16_content v i nl sz0 bl R MN ST) as (_ & b0 & C0).
  pose proof (C17_truncate v i size r v1 sz0 b0 R S C0) as C1. assert (R1 : reach v1) by (eapply steps1; eauto).
  pose proof (C16_history i _ _ _ WK R1 _ _ C1) as C2. set (x0 := (size, fun p0 => if p0 <? N.min size sz0 then b0 p0 else 0)) in *.
  assert (Z : p < fst (replay i t x0) -> snd (replay i t x0) p = 0).
  { assert (Z0 : p < fst x0 -> snd x0 p = 0) by (cbn; lia). clearbody x0. clear - Z0 NW. revert x0 Z0 NW. induction t as [|e t IH]; intros x0 Z0 NW; auto. unfold replay. cbn [fold_left]. fold (replay i t (replay1 i x0 e)).
    apply IH; [|intros; apply NW; right; auto]. specialize (NW e (or_introl eq_refl)). destruct e as [c r|]; [|exact Z0]. destruct c; try exact Z0; destruct r as [[|n| | | |]|]; try exact Z0; cbn [replay1]; try (destruct (N.eqb_spec i0 i); [|exact Z0]; cbn [fst snd]; intros; destruct (N.ltb_spec p (N.min size (fst x0))); auto; apply Z0; lia).
    destruct (N.eqb_spec i0 i); [|exact Z0]. destruct (N.ltb_spec 0 n); [|exact Z0]. cbn [andb fst snd]. intros _. cbn in NW.
    replace ((start <=? p) && (p <? start + n)) with false. 2:{ symmetry. apply not_true_is_false. intros X. apply andb_prop in X. destruct X as [X1 X2]. apply N.leb_le in X1. apply N.ltb_lt in X2. tauto. }
    destruct (N.ltb_spec p (fst x0)); auto. }
  assert (R2 : reach v2 /\ v_mnt v2 = true) by (eapply worked_reach; eauto). destruct R2 as [R2 M2]. destruct (reach_mnt g OK atom MM TM TD v2 R2 M2) as (W & C & SA).
  apply (content_W _ _ _ _ _ SA) in C2. apply (content_W _ _ _ _ _ SA) in CT. destruct C2 as (n1 & f1 & E1 & B1). destruct CT as (n2 & f2 & E2 & B2). rewrite E1 in E2. injection E2 as <- <- <-.
  rewrite <- B2, B1 by auto. apply Z. auto.
Qed.

(** * C19 *)
Definition lookups (v : vol) (m : N * name -> option N) : Prop := forall p nm i, nozero nm -> found v p nm i <-> m (p, nm) = Some i.
Definition absm (W : fs) (m : N * name -> option N) : Prop := forall p nm i, nozero nm -> named W p nm i <-> m (p, nm) = Some i.
Lemma lookups_W v W C ro mask m : Sim v (Mnt W C ro mask) -> lookups v m <-> absm W m.
Proof. intros S. split; intros H p nm i NZ; rewrite <- (H p nm i NZ); [symmetry|]; eapply found_W; eauto. Qed.
Lemma nset_spec m a o b : nset m a o b = if name_eqb b a then o else m b.
Proof using. reflexivity. Qed.
Lemma name_eqb_spec a b : reflect (a = b) (name_eqb a b).
Proof using. unfold name_eqb. destruct (pair_eq_dec a b); constructor; auto. Qed.
Lemma absm_set W W' m p nm o : absm W m ->
  (forall q x j, named W' q x j <-> named W q x j /\ (q, x) <> (p, nm) \/ (q = p /\ x = nm /\ o = Some j)) -> absm W' (nset m (p, nm) o).
Proof using.
  intros H E q x j NZ. rewrite E, nset_spec. specialize (H q x j NZ). destruct (name_eqb_spec (q, x) (p, nm)) as [X|X].
  - injection X as -> ->. tauto. - rewrite H. split; [|tauto]. intros [[]|(-> & -> & _)]; tauto.
Qed.
Theorem C19_history : forall v t v', worked g atom MM TM TD (fun _ => True) v t v' -> reach v -> forall m, lookups v m -> lookups v' (names t m).
Proof.
  induction 1 as [v MN F|v c r v1 t v2 MN F N1 N2 S WK IH|v v1 t v2 F S WK IH]; intros R m L; [exact L| |].
  - unfold names. cbn [fold_left]. apply IH; [eapply steps1; eauto|]. clear IH WK.
    assert (LG : legal c) by (inversion S; auto).
    destruct (work_step v c r v1 R MN N1 N2 S) as (W & C & ro & mask & W' & C' & mask' & SA & SA' & O).
    apply (lookups_W _ _ _ _ _ m SA) in L. apply (lookups_W _ _ _ _ _ _ SA'). pose proof (Sim_WF _ _ _ _ _ SA) as WFW.
    destruct O as [(MC & (x & -> & O))|(-> & MC)].
    2:{ assert (names1 m (ECall c r) = m) as ->; auto. destruct c; auto; destruct MC as (e & ->); auto. }
    destruct c; try discriminate MC; cbn in O; cbn [names1].
    + destruct O as (i & -> & _ & _ & _ & O). eapply absm_set; eauto. intros q y j. rewrite (named_create _ _ _ _ _ _ WFW O). destruct O as (_ & _ & _ & NN & _).
      split; [intros [X|(-> & -> & ->)]; [left; split; auto; intros Z; injection Z as -> ->; eapply NN; eauto|auto]|]. intros [[X _]|(-> & -> & Z)]; auto. injection Z as ->. auto.
    + destruct O as (-> & _ & _ & O). eapply absm_set; eauto. intros q y j. rewrite (named_link _ _ _ _ _ O). destruct O as (? & ? & ? & ? & _ & _ & _ & NN & _).
      split; [intros [X|(-> & -> & ->)]; [left; split; auto; intros Z; injection Z as -> ->; eapply NN; eauto|auto]|]. intros [[X _]|(-> & -> & Z)]; auto. injection Z as ->. auto.
    + destruct O as (-> & O). destruct (named_unlink _ _ _ _ WFW O) as (_ & E). eapply absm_set; eauto. intros q y j. rewrite E. split; [tauto|]. intros [X|(_ & _ & Z)]; [auto|discriminate].
    + destruct O as (-> & O). destruct LG as [Z1 Z2]. destruct (named_rename _ _ _ _ _ _ WFW O) as (i & NS & H). unfold rename1.
      pose proof (proj1 (L _ _ _ Z1) NS) as E. rewrite E. destruct H as [(ND & ->)|(ND & H)].
      * rewrite (proj1 (L _ _ _ Z2) ND), N.eqb_refl. auto.
      * assert (G : absm W' (nset (nset m (sp, sn) None) (dp, dn) (Some i))).
        { intros q y j NZ. rewrite H, !nset_spec. specialize (L q y j NZ). destruct (name_eqb_spec (q, y) (dp, dn)) as [X|X].
          - injection X as -> ->. split; [intros [(_ & _ & ->)|(X & _)]; [auto|tauto]|]. intros X. injection X as ->. auto.
          - destruct (name_eqb_spec (q, y) (sp, sn)) as [Y|Y].
            + split; [|discriminate]. intros [(-> & -> & _)|(_ & X' & _)]; tauto.
            + rewrite L. split; [|tauto]. intros [(-> & -> & _)|(_ & _ & X')]; tauto. }
        destruct (m (dp, dn)) as [j|] eqn:Ej; auto. destruct (N.eqb_spec i j) as [<-|]; auto. exfalso. apply ND. apply L; auto.
    + destruct O as (n & -> & O). destruct (len =? 0); [destruct O as (_ & -> & _); auto|]. destruct O as (_ & O). intros q y j NZ. rewrite (named_write _ _ _ _ _ _ O). auto.
    + destruct O as (-> & _ & O). intros q y j NZ. rewrite (named_truncate _ _ _ _ O). auto.
  - apply IH; [eapply steps0; eauto|]. destruct (reach_mnt g OK atom MM TM TD v R) as (W & C & SA); [inversion S; auto|].
    apply (lookups_W _ _ _ _ _ m SA) in L. apply (lookups_W _ _ _ _ _ m (back_sim _ _ _ _ _ _ SA S)). exact L.
Qed.
(** A freshly formatted volume has no names. *)
Theorem C19_empty v v1 flags v2 : reach v -> step v (Some (ECall CFormat (Ok OUnit))) v1 -> step v1 (Some (ECall (CMount flags) (Ok OUnit))) v2 -> lookups v2 (fun _ => None).
Proof.
  intros R S1 S2. destruct (reach_sim g OK atom MM TM TD v R) as (a & SA). destruct (step_sim g OK atom MM TM TD _ _ _ _ SA S1) as (a1 & A1 & SA1). destruct (step_sim g OK atom MM TM TD _ _ _ _ SA1 S2) as (a2 & A2 & SA2).
  inversion A1; subst; try discriminate; try (match goal with H : _ \/ _ |- _ => destruct H as [H|H]; discriminate end).
  inversion A2; subst; try discriminate; try (match goal with H : _ \/ _ |- _ => destruct H as [H|H]; discriminate end).
  apply (lookups_W _ _ _ _ _ _ SA2). intros p nm i NZ. split; [|discriminate]. intros (k & q & sl & E & E'). unfold Fempty in E. destruct (upd_cases (fun _ => None) ROOT (Some (ADir 0 (fun _ => None))) p) as [[U _]|[U _]]; rewrite U in E; [|discriminate].
  injection E as <- <-. discriminate.
Qed.
(** In a directory a valid name is either found or reported absent. *)
Theorem C19_total v p nm : reach v -> v_mnt v = true -> is_dir v p -> nozero nm -> 0 < nlen nm <= NMAX g -> (exists i, found v p nm i) \/ absent v p nm.
Proof.
  intros R MN D NZ L. destruct (reach_mnt g OK atom MM TM TD v R MN) as (W & C & SA). apply (is_dir_W _ _ _ _ _ SA) in D.
  pose proof (ask_ok _ _ _ _ _ (CLookup p nm) SA eq_refl NZ) as Q. unfold PropNs.found, PropNs.absent. cbn in Q.
  destruct (ask v (CLookup p nm)) as [[|n| | | |]|e]; try tauto; eauto. right.
  destruct Q as [[(_ & Q)|(_ & Q)]|[[(_ & Q)|(_ & Q)]|(-> & _ & Q)]]; auto; exfalso; try lia.
  - destruct D as (? & ? & D). congruence. - eapply dir_file; eauto.
Qed.
(** At most one entry per name, and it is the one that lookup finds. *)
Theorem C19_unique v p nm : reach v -> v_mnt v = true -> nozero nm ->
  (forall i, found v p nm i <-> exists k, at_pos v p k nm i) /\
  (forall k l i j, at_pos v p k nm i -> at_pos v p l nm j -> k = l /\ i = j).
Proof.
  intros R MN NZ. destruct (reach_mnt g OK atom MM TM TD v R MN) as (W & C & SA). split.
  - intros i. rewrite (found_W _ _ _ _ _ SA p nm i NZ). unfold named. setoid_rewrite (at_pos_W _ _ _ _ _ SA). tauto.
  - intros k l i j. rewrite !(at_pos_W _ _ _ _ _ SA). intros A B. assert (k = l) by (eapply (wf_name W); eauto; eapply Sim_WF; eauto). subst. split; auto. destruct (entry_fun _ _ _ _ _ _ _ A B); auto.
Qed.
(** Creating an existing name fails and changes nothing. *)
Theorem C19_exists v p nm j c r v' : reach v -> v_mnt v = true -> found v p nm j -> step v (Some (ECall c r)) v' ->
  (exists d, c = CCreate p nm d) \/ (exists i, c = CLink p nm i) ->
  (exists e, r = Err e /\ ((exists d, c = CCreate p nm d) -> e = EEXIST \/ e = ENOSPC \/ e = ENFILE \/ s_ro (v_s v) = true /\ e = EROFS)) /\ unchanged v v'.
Proof.
  intros R MN F S CC. assert (MC : modifies c = true) by (destruct CC as [[d ->]|[i ->]]; auto).
  assert (NZ : nozero nm) by (inversion S; subst; destruct CC as [[d ->]|[i ->]]; auto).
  destruct r as [x|e].
  - exfalso. destruct (ok_sim v c x v' R S MC) as (W & W' & C & C' & mask & SA & SA' & O). apply (found_W _ _ _ _ _ SA) in F; auto.
    destruct CC as [[d ->]|[i ->]]; cbn in O.
    + destruct O as (i & _ & _ & _ & _ & (_ & _ & _ & NN & _)). eapply NN; eauto.
    + destruct O as (_ & _ & _ & (? & ? & ? & ? & _ & _ & _ & NN & _)). eapply NN; eauto.
  - destruct (err_sim v c e v' R S MC MN) as (W & C & C' & ro & mask & SA & SA' & O). apply (found_W _ _ _ _ _ SA) in F; auto. split.
    + exists e. split; auto. intros [d ->]. destruct O as [(-> & [->|O])|(RO & ->)]; auto; [|right; right; right; destruct SA as (_ & SA & _); subst; auto].
      destruct F as (k & F). pose proof (Sim_entry _ _ _ _ _ _ _ _ _ SA F) as (((K1 & K2) & _ & K3) & _).
      destruct O as [[(_ & O)|(_ & O)]|[[(_ & O)|(_ & O)]|[(_ & O)|[(-> & _)|(-> & _)]]]]; auto; exfalso; try lia; try congruence.
      * destruct F as (? & ? & F & _). congruence. * eapply dir_file; eauto. eapply entry_dir; eauto.
    + exists W. split; eapply (Sim_shows g OK atom MM TM TD); eauto.
Qed.
(** Any call that fails changes nothing (C24 too). *)
Theorem C24_error v c e v' : reach v -> v_mnt v = true -> modifies c = true -> step v (Some (ECall c (Err e))) v' -> unchanged v v'.
Proof.
  intros R MN MC S. destruct (err_sim v c e v' R S MC MN) as (W & C & C' & ro & mask & SA & SA' & _). exists W. split; eapply (Sim_shows g OK atom MM TM TD); eauto.
Qed.

(** * C20 *)
Lemma walk_det v p k L : walk v p k L -> forall L', walk v p k L' -> L = L'.
Proof using. induction 1; intros L' H'; inversion H'; subst; try congruence. rewrite H in H1. injection H1 as <- <- <-. f_equal. auto. Qed.
Theorem C20_deterministic v p k L L' : walk v p k L -> walk v p k L' -> L = L'.
Proof using. eauto using walk_det. Qed.
Lemma walk_from v W C ro mask p : Sim v (Mnt W C ro mask) -> isdir W p -> forall n k, (forall l nm i, entry W p l nm i -> l < k + N.of_nat n) ->
  exists L ks, walk v p k L /\ StronglySorted N.lt ks /\ Forall2 (fun l e => k <= l /\ at_pos v p l (fst e) (snd e)) ks L /\
   (forall l nm i, k <= l -> at_pos v p l nm i -> In l ks).
Proof.
  intros SA D. induction n as [n IH] using lt_wf_ind; intros k Hn. pose proof (ask_ok _ _ _ _ _ (CDirRead p k) SA eq_refl I) as Q. cbn in Q.
  destruct (ask v (CDirRead p k)) as [[| | | |[[[nm i]|] k']|]|e] eqn:E; try tauto.
  - destruct Q as (l & A & -> & B & B'). pose proof (Hn _ _ _ B) as Hl. destruct (IH (n - (N.to_nat (l + 1 - k)))%nat ltac:(lia) (l + 1)) as (L & ks & WL & SS & F2 & CM).
    { intros l' nm' i' H. specialize (Hn _ _ _ H). lia. }
    exists ((nm, i) :: L), (l :: ks). split; [eapply W_next; eauto|]. split; [|split].
    + constructor; auto. rewrite Forall_forall. intros y Hy. clear - F2 Hy. induction F2; [destruct Hy|]. destruct Hy as [<-|Hy]; auto. lia.
    + constructor; [split; auto; apply (at_pos_W _ _ _ _ _ SA); auto|]. clear - F2 A. induction F2; constructor; auto. destruct H as [H ?]. split; auto. lia.
    + intros y nm' j Hy AP. destruct (N.lt_trichotomy y l) as [Z|[->|Z]]; [|left; auto|right; eapply CM; eauto; lia]. exfalso. apply (at_pos_W _ _ _ _ _ SA) in AP. eapply B'; eauto.
  - destruct Q as (_ & Q). exists [], []. split; [eapply W_end; eauto|]. split; [constructor|]. split; [constructor|]. intros l nm i Hl AP. apply (at_pos_W _ _ _ _ _ SA) in AP. edestruct Q; eauto.
  - exfalso. destruct Q as [(_ & Q)|(_ & Q)]; [destruct D as (? & ? & D); congruence|]. eapply dir_file; eauto.
Qed.
(** Reading a directory from position [k] on ends, and yields exactly the entries at positions from
    [k] on, in the order of their positions; from position 0, every name once. *)
Theorem C20_walk v p k : reach v -> v_mnt v = true -> is_dir v p ->
  exists L ks, walk v p k L /\ StronglySorted N.lt ks /\ Forall2 (fun l e => k <= l /\ at_pos v p l (fst e) (snd e)) ks L /\
   (forall l nm i, k <= l -> at_pos v p l nm i -> In l ks) /\ NoDup (map fst L) /\
   (k = 0 -> forall nm i, nozero nm -> In (nm, i) L <-> found v p nm i).
Proof.
  intros R MN D. destruct (reach_mnt g OK atom MM TM TD v R MN) as (W & C & SA). apply (is_dir_W _ _ _ _ _ SA) in D. destruct D as (q & sl & D).
  destruct (Sim_slots _ _ _ _ _ p q sl SA D) as (n & Hn).
  destruct (walk_from _ _ _ _ _ p SA (ex_intro _ q (ex_intro _ sl D)) (N.to_nat n) k) as (L & ks & WL & SS & F2 & CM).
  { intros l nm i (q' & sl' & E & E'). rewrite D in E. injection E as <- <-. specialize (Hn _ _ _ E'). lia. }
  exists L, ks. split; auto. split; auto. split; auto. split; auto. pose proof (Sim_WF _ _ _ _ _ SA) as WFW. split.
  - clear - F2 SS SA WFW OK TD. induction F2 as [|l e ks L (_ & H) F2 IH]; [constructor|]. cbn [map]. inversion SS; subst. constructor; auto. intros X. apply in_map_iff in X. destruct X as (e' & X & Y).
    assert (Z : exists l', In l' ks /\ at_pos v p l' (fst e') (snd e')). { clear - F2 Y. induction F2; [destruct Y|]. destruct Y as [<-|Y]; [exists x; split; [left; auto|apply H]|]. destruct IHF2 as (lz & ? & ?); auto. exists lz. split; auto. right; auto. }
    destruct Z as (l' & Z1 & Z2). apply (at_pos_W _ _ _ _ _ SA) in H. apply (at_pos_W _ _ _ _ _ SA) in Z2. rewrite X in Z2.
    match goal with Hf : Forall _ ks |- _ => rewrite Forall_forall in Hf; specialize (Hf l' Z1) end. assert (l = l') by (eapply (wf_name W); eauto). lia.
  - intros -> nm i NZ. rewrite (found_W _ _ _ _ _ SA p nm i NZ). split.
    + intros H. assert (Z : exists l', In l' ks /\ at_pos v p l' nm i). { clear - F2 H. induction F2; [destruct H|]. destruct H as [->|Y]; [exists x; split; [left; auto|apply H0]|]. destruct IHF2 as (lz & ? & ?); auto. exists lz. split; auto. right; auto. }
      destruct Z as (l & _ & Z). exists l. apply (at_pos_W _ _ _ _ _ SA); auto.
    + intros (l & H). assert (Hl : In l ks) by (eapply CM; [|apply (at_pos_W _ _ _ _ _ SA); eauto]; lia).
      assert (Z : exists e, In e L /\ at_pos v p l (fst e) (snd e)). { clear - F2 Hl. induction F2; [destruct Hl|]. destruct Hl as [->|Y]; [exists y; split; [left; auto|apply H]|]. destruct IHF2 as (ez & ? & ?); auto. exists ez. split; auto. right; auto. }
      destruct Z as ([nm' j] & Z1 & Z2). apply (at_pos_W _ _ _ _ _ SA) in Z2. destruct (entry_fun _ _ _ _ _ _ _ H Z2) as [-> ->]. auto.
Qed.

(** * C21 *)
Lemma Below_trans F a b c : Below F a b -> Below F b c -> Below F a c.
Proof using. intros H. induction 1; auto. eapply B_step; eauto. Qed.
Lemma no_cycle F : WF F -> forall i, Reach F i -> forall p sl, F i = Some (ADir p sl) -> ~ Below F i p.
Proof using.
  intros W. induction 1 as [|i p sl E R IH]; intros q s H B.
  - destruct (wf_root F W) as (sr & RT). rewrite RT in H. injection H as <- <-. inversion B; subst. rewrite (wf_none F W) in *. discriminate.
  - rewrite E in H. injection H as <- <-. inversion B; subst; [eapply IH; eauto|]. eapply IH; eauto. eapply Below_trans; eauto. eapply B_step; eauto. constructor.
Qed.
(** Every directory leads to the root by following parents. *)
Theorem C21_tree v i : reach v -> v_mnt v = true -> is_dir v i -> climbs v ROOT i.
Proof.
  intros R MN D. destruct (reach_mnt g OK atom MM TM TD v R MN) as (W & C & SA). apply (is_dir_W _ _ _ _ _ SA) in D. apply (climbs_W _ _ _ _ _ SA).
  pose proof (wf_reach W (Sim_WF _ _ _ _ _ SA) i D) as H. clear - H. induction H; [constructor|eapply B_step; eauto].
Qed.
Theorem C21_acyclic v i p : reach v -> v_mnt v = true -> ask v (CDirParent i) = Ok (ONum p) -> ~ climbs v i p.
Proof.
  intros R MN D. destruct (reach_mnt g OK atom MM TM TD v R MN) as (W & C & SA). apply (parent_W _ _ _ _ _ SA) in D. destruct D as (sl & D). rewrite (climbs_W _ _ _ _ _ SA).
  pose proof (Sim_WF _ _ _ _ _ SA) as WFW. eapply no_cycle; eauto. apply (wf_reach W WFW). exists p, sl; auto.
Qed.
(** Every directory but the root has one name, in its parent. *)
Theorem C21_one_name v i : reach v -> v_mnt v = true -> is_dir v i -> i <> ROOT ->
  exists p k nm, ask v (CDirParent i) = Ok (ONum p) /\ at_pos v p k nm i /\ forall p' k' nm', at_pos v p' k' nm' i -> p' = p /\ k' = k /\ nm' = nm.
Proof.
  intros R MN D NR. destruct (reach_mnt g OK atom MM TM TD v R MN) as (W & C & SA). apply (is_dir_W _ _ _ _ _ SA) in D. destruct D as (p & sl & D).
  pose proof (Sim_WF _ _ _ _ _ SA) as WFW. destruct (wf_dir W WFW i p sl D NR) as (k & nm & E & U). exists p, k, nm. split; [apply (parent_W _ _ _ _ _ SA); eauto|]. split; [apply (at_pos_W _ _ _ _ _ SA); auto|].
  intros p' k' nm' AP. apply (at_pos_W _ _ _ _ _ SA) in AP. destruct (U _ _ _ AP) as [-> ->]. destruct (entry_fun _ _ _ _ _ _ _ E AP) as [-> _]. auto.
Qed.
(** Nothing names the root. *)
Theorem C21_root v p k nm i : reach v -> v_mnt v = true -> at_pos v p k nm i -> i <> ROOT.
Proof.
  intros R MN AP. destruct (reach_mnt g OK atom MM TM TD v R MN) as (W & C & SA). apply (at_pos_W _ _ _ _ _ SA) in AP. eapply (wf_ent W); eauto. eapply Sim_WF; eauto.
Qed.
(** A rename of a directory into itself or a directory below it fails and changes nothing. *)
Theorem C21_rename v sp sn dp dn i r v' : reach v -> v_mnt v = true -> found v sp sn i -> is_dir v i -> climbs v i dp ->
  step v (Some (ECall (CRename sp sn dp dn) r)) v' -> (exists e, r = Err e) /\ unchanged v v'.
Proof.
  intros R MN F D CL S. assert (NZ : nozero sn /\ nozero dn) by (inversion S; subst; auto). destruct NZ as [NZ NZ'].
  destruct r as [x|e].
  - exfalso. destruct (ok_sim v _ x v' R S eq_refl) as (W & W' & C & C' & mask & SA & SA' & O). apply (found_W _ _ _ _ _ SA) in F; auto. apply (is_dir_W _ _ _ _ _ SA) in D. apply (climbs_W _ _ _ _ _ SA) in CL.
    destruct O as (_ & _ & ks & kd & i' & E & H). pose proof (Sim_WF _ _ _ _ _ SA) as WFW. assert (i' = i) by (eapply named_fun; eauto; exists ks; auto). subst i'.
    destruct H as [(ND & _)|(NB & _)]; [|eapply NB; eauto].
    destruct D as (p & sl & D). destruct (wf_ent W WFW _ _ _ _ E) as [_ NR]. destruct (wf_dir W WFW i p sl D NR) as (k & nm & _ & U). destruct ND as (k' & ND). destruct (U _ _ _ ND) as [-> _].
    eapply no_cycle; eauto. apply (wf_reach W WFW). exists p, sl; auto.
  - split; [eauto|]. apply (C24_error v (CRename sp sn dp dn) e v'); auto.
Qed.

(** * C22 *)
Theorem C22_links v i nl sz bl : reach v -> v_mnt v = true -> ask v (CStat i) = Ok (OStat (false, nl, sz, bl)) ->
  1 <= nl <= 65535 /\ exists L, NoDup L /\ lenN L = nl /\ forall d k, In (d, k) L <-> exists nm, at_pos v d k nm i.
Proof.
  intros R MN ST. destruct (reach_mnt g OK atom MM TM TD v R MN) as (W & C & SA). destruct (stat_W _ _ _ _ _ SA _ _ _ _ ST) as (b & E).
  destruct (wf_file W (Sim_WF _ _ _ _ _ SA) _ _ _ _ E) as (A & L & B & D & F). split; auto. exists L. split; auto. split; auto. intros d k. rewrite F. setoid_rewrite (at_pos_W _ _ _ _ _ SA). tauto.
Qed.
(** What has a name exists, and every file has one. *)
Theorem C22_exists v i : reach v -> v_mnt v = true -> (exists d k nm, at_pos v d k nm i) <-> is_file v i \/ is_dir v i /\ i <> ROOT.
Proof.
  intros R MN. destruct (reach_mnt g OK atom MM TM TD v R MN) as (W & C & SA). rewrite (is_file_W _ _ _ _ _ SA), (is_dir_W _ _ _ _ _ SA). setoid_rewrite (at_pos_W _ _ _ _ _ SA). pose proof (Sim_WF _ _ _ _ _ SA) as WFW. split.
  - intros (d & k & nm & E). destruct (wf_ent W WFW _ _ _ _ E) as [A B]. destruct (node_cases W i) as [?|[?|?]]; tauto.
  - intros [(nl & sz & b & E)|((p & sl & E) & NR)].
    + destruct (wf_file W WFW _ _ _ _ E) as (A & L & ND & LN & F). destruct L as [|[d k] L]; [unfold lenN in LN; cbn in LN; lia|]. destruct (proj1 (F d k) (or_introl eq_refl)) as (nm & H). eauto.
    + destruct (wf_dir W WFW i p sl E NR) as (k & nm & H & _). eauto.
Qed.
End P.
