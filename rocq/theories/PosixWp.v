(** Reasoning about the POSIX layer: weakest preconditions, and the part of the invariant that
    concerns the volumes. *)
From Verif Require Import Base Count FsState FsDir FsSpec FsSpecN FsCoreP2 FsMach FsVolume FsVolumeP FsReach PropFs PropNs Posix PosixSpec.
Ltac Zify.zify_post_hook ::= idtac.

(** Configurations accepted by redconfigchk.h (95-346) and RedCoreInit (core.c:102-138). *)
Record pcfg_ok (pc : pcfg) : Prop := {
  ok_g : forall n, n < NV pc -> cfg_ok (gs pc n);
  ok_bs : forall n, n < NV pc -> BS (gs pc n) <= 65536;    (* redmacs.h:67-98 *)
  ok_nv : 1 <= NV pc <= 255;
  ok_hc : 1 <= HC pc <= 4096;
  ok_tc : 1 <= TC pc;
  ok_sep : SEP pc <> 0;
  ok_sepdot : SEP pc <> DOT;
  ok_pre : forall n, n < NV pc -> nozero (prefix pc n);
  ok_uniq : forall m n, m < NV pc -> n < NV pc -> prefix pc m = prefix pc n -> m = n }.

Section W.
Variable pc : pcfg.
Hypothesis PC : pcfg_ok pc.
Set Default Proof Using "PC".
Notation SEP := (SEP pc).
Notation NV := (NV pc).
Notation MM := (MMASK pc).
Notation TM := (TMASK pc).
Notation TD := (TDEF pc).
Definition vreach (n : N) (v : vol) : Prop := reach (gs pc n) (ATOM pc n) MM TM TD v.
Definition vstep (n : N) : vol -> option event -> vol -> Prop := step (gs pc n) (ATOM pc n) MM TM TD.
Definition vask (n : N) : vol -> call -> res out := ask (gs pc n) (ATOM pc n) MM TM.
Definition vsim (n : N) : vol -> ast -> Prop := Sim (gs pc n) (ATOM pc n).
Definition vdir (n : N) : vol -> N -> Prop := is_dir (gs pc n) (ATOM pc n) MM TM.
Definition vfile (n : N) : vol -> N -> Prop := is_file (gs pc n) (ATOM pc n) MM TM.
Definition vastep (n : N) := astep (NMAX (gs pc n)) (INODE_SIZE_MAX (gs pc n)) (ICNT (gs pc n)) MM TM TD.

(** * Names without separators *)
Definition nsep (nm : name) : Prop := ~ In SEP nm.
(** A name that can be a component of a path. *)
Definition pname (nm : name) : Prop := nsep nm /\ nozero nm /\ nm <> [] /\ nm <> dot1 /\ nm <> dot2.
Definition cleanf (F : fs) : Prop := forall d k nm i, entry F d k nm i -> pname nm.
Definition cleana (a : ast) : Prop :=
  match a with Mnt W C _ _ => cleanf W /\ cleanf C | Umt (Some C) _ => cleanf C | Umt None _ => True end.
Definition cclean (c : call) : Prop :=
  match c with
  | CCreate _ nm _ | CLink _ nm _ => pname nm
  | CRename _ _ _ b => pname b
  | _ => True
  end.
Definition VOK (n : N) (v : vol) : Prop := vreach n v /\ exists a, vsim n v a /\ cleana a.
Definition VInv (s : pst) : Prop := forall n, n < NV -> VOK n (p_v s n).

Lemma cleanf_set F p k nm i : cleanf F -> pname nm -> cleanf (set_slot F p k (Some (nm, i))).
Proof using.
  intros H HN d k' nm' j (q & sl & E1 & E2). unfold set_slot in E1. destruct (F p) as [[|q0 sl0]|] eqn:E; [eapply H; exists q, sl; eauto| |eapply H; exists q, sl; eauto].
  unfold upd in E1. destruct (N.eqb_spec d p) as [->|X]; [|eapply H; exists q, sl; eauto]. injection E1 as <- <-. unfold upd in E2.
  destruct (N.eqb_spec k' k) as [->|Y]; [injection E2 as <- <-; auto|]. eapply H. exists q0, sl0; eauto.
Qed.
Lemma cleanf_clr F p k : cleanf F -> cleanf (set_slot F p k None).
Proof using.
  intros H d k' nm' j (q & sl & E1 & E2). unfold set_slot in E1. destruct (F p) as [[|q0 sl0]|] eqn:E; [eapply H; exists q, sl; eauto| |eapply H; exists q, sl; eauto].
  unfold upd in E1. destruct (N.eqb_spec d p) as [->|X]; [|eapply H; exists q, sl; eauto]. injection E1 as <- <-. unfold upd in E2.
  destruct (N.eqb_spec k' k) as [->|Y]; [discriminate|]. eapply H. exists q0, sl0; eauto.
Qed.
Lemma cleanf_upd F i x : cleanf F -> (forall p sl k y, x = Some (ADir p sl) -> sl k = Some y -> pname (fst y)) -> cleanf (upd F i x).
Proof using.
  intros H HX d k nm j (q & sl & E1 & E2). unfold upd in E1. destruct (N.eqb_spec d i) as [->|Y]; [exact (HX _ _ _ _ E1 E2)|]. eapply H; exists q, sl; eauto.
Qed.
Lemma cleanf_unname F i : cleanf F -> cleanf (unname F i).
Proof using.
  intros H. unfold unname. destruct (F i) as [[nl sz b|p sl]|]; auto; apply cleanf_upd; auto; intros ? ? ? ? X; [destruct (1 <? nl); discriminate|discriminate].
Qed.
Lemma cleanf_parent F i p : cleanf F -> cleanf (set_parent F i p).
Proof using.
  intros H. unfold set_parent. destruct (F i) as [[nl sz b|q sl]|] eqn:E; auto. apply cleanf_upd; auto. intros ? ? ? [nm j] X. injection X as <- <-. intros Y.
  eapply H. exists q, sl. eauto.
Qed.
Lemma cleanf_empty : cleanf Fempty.
Proof using. intros d k nm i (q & sl & E1 & E2). unfold Fempty, upd in E1. destruct (d =? ROOT); [injection E1 as <- <-|]; discriminate. Qed.
Lemma op_clean nmax szmax icnt c r W W' : op_ok nmax szmax icnt c r W W' -> cclean c -> cleanf W -> cleanf W'.
Proof using.
  intros H CC CW. destruct c; cbn in H, CC; try contradiction.
  - destruct H as (i & _ & _ & _ & _ & _ & _ & _ & _ & k & _ & ->). apply cleanf_set; auto. apply cleanf_upd; auto. intros q sl k' y X. destruct dir; [|discriminate].
    injection X as <- <-. discriminate.
  - destruct H as (_ & _ & _ & nl & sz & b & k & _ & _ & _ & _ & _ & ->). apply cleanf_upd; [apply cleanf_set; auto|discriminate].
  - destruct H as (_ & k & i & _ & _ & ->). apply cleanf_unname, cleanf_clr; auto.
  - destruct H as (_ & _ & ks & kd & i & _ & [(_ & ->)|(_ & j & _ & _ & ->)]); auto. apply cleanf_unname, cleanf_parent, cleanf_clr, cleanf_set; auto.
  - destruct H as (n & _ & H). destruct (len =? 0); [destruct H as (_ & -> & _); auto|]. destruct H as (_ & nl & sz & b & _ & ->). apply cleanf_upd; [auto|discriminate].
  - destruct H as (_ & _ & nl & sz & b & _ & ->). apply cleanf_upd; [auto|discriminate].
Qed.
Definition ecall (e : event) : Prop := match e with ECall c _ | ECrash (Some c) => cclean c | ECrash None => True end.
Lemma astep_clean n a e a' : vastep n a e a' -> ecall e -> cleana a -> cleana a'.
Proof using.
  intros H CE CA. inversion H; subst; cbn in CE, CA |- *; auto; try tauto; try apply cleanf_empty.
  - destruct CA as [CW CC]. match goal with X : op_ok _ _ _ _ _ _ _ |- _ => pose proof (op_clean _ _ _ _ _ _ _ X CE CW) as CW' end.
    split; auto. destruct (has mask (evbit c)); auto. match goal with X : retry _ _ _ _ |- _ => destruct X as [->|[_ ->]]; auto end.
  - destruct CA as [CW CC]. split; auto. match goal with X : retry _ _ _ _ |- _ => destruct X as [->|[_ ->]]; auto end.
  - destruct (negb ro && has mask T_UMOUNT); tauto.
  - destruct CA as [CW CC]. match goal with X : _ \/ _ |- _ => destruct X as [X|(_ & [(_ & [[X|[_ X]]|(_ & r & X)])|[(_ & X)|(_ & _ & X)]])]; subst; auto end.
    eapply op_clean; eauto.
  - match goal with X : _ \/ _ |- _ => destruct X as [X|(_ & [X|X])]; subst; auto end. apply cleanf_empty.
Qed.
Lemma step_VOK n v e v' : n < NV -> VOK n v -> vstep n v (Some e) v' -> ecall e -> VOK n v'.
Proof.
  intros Hn (R & a & SA & CA) ST CE. split; [exact (reach_step _ _ _ _ _ _ _ _ R ST)|].
  pose proof (step_sim _ (ok_g _ PC n Hn) _ MM TM TD _ _ _ _ SA ST) as X. destruct X as (a' & AS & SA'). exists a'. split; auto. eapply astep_clean; eauto.
Qed.
Lemma back_VOK n v v' : n < NV -> VOK n v -> vstep n v None v' -> VOK n v'.
Proof.
  intros Hn (R & a & SA & CA) ST. split; [exact (steps0 _ _ _ _ _ _ _ R ST)|].
  exists a. split; auto. exact (step_sim _ (ok_g _ PC n Hn) _ MM TM TD _ _ _ _ SA ST).
Qed.

(** * Weakest preconditions *)
Fixpoint wp {A} (m : B A) (Q : A -> pst -> Prop) (s : pst) : Prop :=
  match m with
  | BRet a => Q a s
  | BAct l f k => match l with Some c => legal c /\ cclean c | None => True end /\
      (p_ok (snd (f s)) = true -> VInv (snd (f s)) /\ wp (k (fst (f s))) Q (snd (f s)))
  end.
(** Actions never set [p_ok]. *)
Fixpoint mono {A} (m : B A) : Prop :=
  match m with BRet _ => True | BAct _ f k => (forall s, p_ok (snd (f s)) = true -> p_ok s = true) /\ forall x, mono (k x) end.
Lemma mono_brun {A} (m : B A) : mono m -> forall s, p_ok (snd (brun m s)) = true -> p_ok s = true.
Proof using. induction m as [a|X lb f k IH]; cbn; auto. intros [H1 H2] s H. apply H1. eapply IH; eauto. Qed.
Lemma wp_brun {A} (m : B A) : mono m -> forall Q s, wp m Q s -> p_ok (snd (brun m s)) = true -> Q (fst (brun m s)) (snd (brun m s)).
Proof using.
  induction m as [a|X lb f k IH]; cbn; auto. intros [H1 H2] Q s [_ HW] H. eapply IH; eauto. apply HW. eapply mono_brun; eauto.
Qed.
(** The states in which a power loss can interrupt [m], and the core call in progress. *)
Inductive midway {A} : B A -> pst -> pst -> option call -> Prop :=
| Mw_here m s : midway m s s None
| Mw_core X c (f : pst -> X * pst) k s : midway (BAct (Some c) f k) s s (Some c)
| Mw_on X l (f : pst -> X * pst) k s s1 oc : midway (k (fst (f s))) (snd (f s)) s1 oc -> midway (BAct l f k) s s1 oc.
Lemma midway_mono {A} (m : B A) s s1 oc : midway m s s1 oc -> mono m -> p_ok s1 = true -> p_ok s = true.
Proof using. induction 1 as [m s|X c f k s|X l f k s s1 oc H IH]; auto. intros [M1 M2] HO. apply M1, IH; auto. Qed.
Lemma wp_midway {A} (m : B A) s s1 oc : midway m s s1 oc -> mono m -> forall Q, wp m Q s -> VInv s -> p_ok s1 = true -> VInv s1 /\ forall c, oc = Some c -> cclean c.
Proof using.
  induction 1 as [m s|X c f k s|X l f k s s1 oc H IH]; intros MN Q HW HV HO.
  - split; auto. discriminate.
  - split; auto. intros c' E. injection E as <-. apply HW.
  - destruct MN as [M1 M2]. destruct HW as [_ HW]. destruct (HW (midway_mono _ _ _ _ H (M2 _) HO)) as [V1 W1]. eapply IH; eauto.
Qed.
Lemma wp_conseq {A} (m : B A) : forall (Q R : A -> pst -> Prop) s, wp m Q s -> (forall a s', Q a s' -> R a s') -> wp m R s.
Proof using. induction m as [a|X lb f k IH]; cbn; auto. intros Q R s [HL H] HQ. split; auto. intros HO. destruct (H HO) as [V1 W1]. split; auto. eapply IH; eauto. Qed.
Lemma wp_bbind {A C} (m : B A) (f : A -> B C) Q : forall s, wp m (fun a s' => wp (f a) Q s') s -> wp (bbind m f) Q s.
Proof using. induction m as [a|X lb g k IH]; cbn; auto. intros s [HL H]. split; auto. intros HO. destruct (H HO) as [V1 W1]. split; auto. Qed.
Lemma wp_bind {A C} (m : PM A) (f : A -> PM C) Q s :
  wp m (fun r s' => match r with Ok a => wp (f a) Q s' | Err e => Q (Err e) s' end) s -> wp (bind m f) Q s.
Proof using. intros H. apply wp_bbind. eapply wp_conseq; [exact H|]. intros [a|e] s' X; auto. Qed.
Lemma wp_catch {A C} (m : PM A) (f : res A -> PM C) Q s : wp m (fun r s' => wp (f r) Q s') s -> wp (catch m f) Q s.
Proof using. apply wp_bbind. Qed.
Lemma wp_act {A} (f : pst -> res A * pst) (Q : res A -> pst -> Prop) s : VInv s -> p_v (snd (f s)) = p_v s -> Q (fst (f s)) (snd (f s)) -> wp (act f) Q s.
Proof using. intros HV E H. split; [exact I|]. intros HO. split; auto. intros n Hn. rewrite E. apply HV; auto. Qed.
Lemma wp_get {A} (f : pst -> A) (Q : res A -> pst -> Prop) s : VInv s -> Q (Ok (f s)) s -> wp (get f) Q s.
Proof using. intros HV H. apply wp_act; auto. Qed.
Lemma wp_modify (f : pst -> pst) (Q : res unit -> pst -> Prop) s : VInv s -> p_v (f s) = p_v s -> Q (Ok tt) (f s) -> wp (modify f) Q s.
Proof using. intros HV E H. apply wp_act; auto. Qed.
Lemma wp_check b e (Q : res unit -> pst -> Prop) s : (b = true -> Q (Ok tt) s) -> (b = false -> Q (Err e) s) -> wp (check b e) Q s.
Proof using. destruct b; cbn; auto. Qed.
Lemma wp_ret {A} (a : A) (Q : res A -> pst -> Prop) s : Q (Ok a) s -> wp (ret a) Q s.
Proof using. auto. Qed.
Lemma wp_fail {A} e (Q : res A -> pst -> Prop) s : Q (Err e) s -> wp (fail e) Q s.
Proof using. auto. Qed.
Lemma mono_bbind {A C} (m : B A) (f : A -> B C) : mono m -> (forall a, mono (f a)) -> mono (bbind m f).
Proof using. induction m as [a|X g k IH]; cbn; auto. intros [H1 H2] HF. split; auto. Qed.
Lemma mono_bind {A C} (m : PM A) (f : A -> PM C) : mono m -> (forall a, mono (f a)) -> mono (bind m f).
Proof using. intros H1 H2. apply mono_bbind; auto. intros [a|e]; cbn; auto. Qed.
Lemma mono_catch {A C} (m : PM A) (f : res A -> PM C) : mono m -> (forall a, mono (f a)) -> mono (catch m f).
Proof using. apply mono_bbind. Qed.
Lemma mono_act {A} (f : pst -> res A * pst) : (forall s, p_ok (snd (f s)) = true -> p_ok s = true) -> mono (act f).
Proof using. cbn; auto. Qed.

(** * States that differ only in ghosts *)
Definition rest (s s' : pst) : Prop := p_init s' = p_init s /\ p_h s' = p_h s /\ p_t s' = p_t s /\ p_gen s' = p_gen s.
Definition same (s s' : pst) : Prop := rest s s' /\ p_cur s' = p_cur s /\ forall n, p_v s' n = p_v s n.
Lemma same_refl s : same s s.
Proof using. split; [repeat split|auto]. Qed.
Lemma same_trans s s1 s2 : same s s1 -> same s1 s2 -> same s s2.
Proof using.
  intros ((A & B & C & D) & E & F) ((A' & B' & C' & D') & E' & F'). split; [repeat split; congruence|]. split; [congruence|]. intros n. rewrite F'. apply F.
Qed.
Lemma same_VInv s s' : same s s' -> VInv s -> VInv s'.
Proof using. intros (_ & _ & E) H n Hn. rewrite E. apply H; auto. Qed.

(** * Calls into the core *)
Lemma okb_spec v c o1 o2 : okb v c o1 o2 = true -> allowed v c /\ room v o1 o2.
Proof using.
  unfold okb, room. rewrite !andb_true_iff, N.leb_le. intros [H1 H2]. split; auto.
  destruct c; cbn in *; auto. + now apply negb_true_iff in H1. + apply orb_true_iff in H1. rewrite N.eqb_eq in H1. exact H1.
Qed.
Lemma mono_core c : mono (core pc c).
Proof using.
  split; [|intros; exact I]. intros s. unfold core_act. destruct (p_o s 0%nat) as [o1 o2]. destruct (exec _ _ _ _ _ _ _ _) as [[r v'] t]. cbn. intros H. now apply andb_true_iff in H.
Qed.
(** Any call: a step of the current volume. *)
Lemma wp_core c (Q : res out -> pst -> Prop) s : VInv s -> p_cur s < NV -> legal c -> cclean c ->
  (forall r v' s', vstep (p_cur s) (p_v s (p_cur s)) (Some (ECall c r)) v' -> VInv s' -> rest s s' -> p_cur s' = p_cur s ->
     p_v s' = upd (p_v s) (p_cur s) v' -> Q r s') -> wp (core pc c) Q s.
Proof.
  intros HV HC LG CC H. split; [auto|]. intros HO. unfold core_act in *. destruct (p_o s 0%nat) as [o1 o2]. destruct (exec _ _ _ _ _ _ _ _) as [[r v'] t] eqn:EX. cbn in *.
  apply andb_true_iff in HO as [HO HB]. apply okb_spec in HB as (AL & RM).
  assert (ST : vstep (p_cur s) (p_v s (p_cur s)) (Some (ECall c r)) v') by (eapply S_call; eauto).
  assert (HV' : VInv (mkP (p_init s) (p_h s) (p_t s) (p_gen s) (upd (p_v s) (p_cur s) v') (p_cur s) (fun k : nat => p_o s (S k)) (p_ok s && okb (p_v s (p_cur s)) c o1 o2))).
  { intros n Hn. cbn. unfold upd. destruct (N.eqb_spec n (p_cur s)) as [->|X]; [|apply HV; auto]. eapply step_VOK; eauto. }
  split; auto. eapply H; eauto. split; auto.
Qed.
(** The answer to a reading call, mounted or not. *)
Lemma unm_ask n v c o1 o2 : v_mnt v = false -> reads c = true -> exec (gs pc n) (ATOM pc n) MM TM c o1 o2 v = (Err EINVAL, v, []).
Proof using.
  intros H HR. destruct c; try discriminate; cbn; unfold omap, pbind, RedCoreLookup, RedCoreStat, RedCoreFileRead, RedCoreDirRead, RedCoreDirParent, mounted; rewrite H; reflexivity.
Qed.
Lemma vask_exec n v c o1 o2 : n < NV -> VOK n v -> reads c = true -> legal c -> exists t, exec (gs pc n) (ATOM pc n) MM TM c o1 o2 v = (vask n v c, v, t).
Proof.
  intros Hn (R & _) HR LG. destruct (v_mnt v) eqn:E.
  - destruct (reach_mnt _ (ok_g _ PC n Hn) _ _ _ _ _ R E) as (W & C & SA). eapply (ask_exec _ (ok_g _ PC n Hn)); eauto.
  - exists []. unfold vask, ask. rewrite !unm_ask; auto.
Qed.
Lemma wp_read c (Q : res out -> pst -> Prop) s : VInv s -> p_cur s < NV -> legal c -> reads c = true ->
  (forall s', VInv s' -> same s s' -> Q (vask (p_cur s) (p_v s (p_cur s)) c) s') -> wp (core pc c) Q s.
Proof.
  intros HV HC LG RD H. split; [split; auto; destruct c; try discriminate; exact I|]. intros HO. unfold core_act in *. destruct (p_o s 0%nat) as [o1 o2].
  destruct (vask_exec (p_cur s) (p_v s (p_cur s)) c o1 o2 HC (HV _ HC) RD LG) as (t & EX). rewrite EX in *. cbn in *.
  match goal with |- VInv ?x /\ _ => assert (SM : same s x) end.
  { split; [repeat split|]. split; auto. intros n. cbn. unfold upd. destruct (N.eqb_spec n (p_cur s)) as [->|X]; auto. }
  split; [eapply same_VInv; eauto|]. apply H; auto. eapply same_VInv; eauto.
Qed.
End W.
