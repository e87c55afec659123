(** The simulation behind C38. *)
From Verif Require Import Base Count FsState FsDir FsSpec FsMach FsVolume FsReach Posix PosixWp PosixPath2 PosixInv PosixReach PosixKeep PosixConc.
From Coq Require Import ZArith.
Ltac Zify.zify_post_hook ::= idtac.

(** * What the labels say about a task *)
Definition lbl_tid (l : lbl) : N := match l with LInv t _ | LAcq t _ | LEnd t _ _ | LRet t _ _ => t end.
Definition mine (tid : N) (tr : list lbl) : list lbl := filter (fun l => lbl_tid l =? tid) tr.
(** The task [tid] has made a sequence of calls; each had its effect once between call and return, with the
    result that was returned; each acquired the mutex once, before its effect, unless it was rejected by a check
    made before PosixEnter. *)
Inductive whole (tid : N) : list lbl -> Prop :=
| W_nil : whole tid []
| W_call l c r : whole tid l -> early c = true -> whole tid (l ++ [LInv tid c; LAcq tid c; LEnd tid c r; LRet tid c r])
| W_pre l c e : whole tid l -> precheck c = Some e -> whole tid (l ++ [LInv tid c; LEnd tid c (Err e); LRet tid c (Err e)]).
(** The calls that acquired the mutex in PosixEnter, in this order. *)
Fixpoint acqs (tr : list lbl) : list (N * pcall) := match tr with [] => [] | LAcq t c :: tr' => (t, c) :: acqs tr' | _ :: tr' => acqs tr' end.
Lemma acqs_app a b : acqs (a ++ b) = acqs a ++ acqs b.
Proof. induction a as [|x a IH]; auto. cbn. destruct x; auto. cbn. now rewrite IH. Qed.
Lemma mine_app t a b : mine t (a ++ b) = mine t a ++ mine t b.
Proof. apply filter_app. Qed.
Definition called (l : list (N * pcall * res pout)) : list (N * pcall) := map fst (filter (fun x => early (snd (fst x))) l).
Lemma called_app a b : called (a ++ b) = called a ++ called b.
Proof. unfold called. now rewrite filter_app, map_app. Qed.

(** The tasks that hold the mutex. *)
Definition holding (t : tstate) : bool :=
  match t with TReg _ | TFail _ _ | THold _ _ | TLookH _ _ | TLookR _ _ _ | TJoinH _ _ | TJoinR _ _ _ => true | _ => false end.
Definition entered (tid : N) (t : tstate) : list (N * pcall) := match t with TReg c | TFail c _ | THold c _ => [(tid, c)] | _ => [] end.
(** The labels of the call under way. *)
Definition part (tid : N) (t : tstate) : list lbl :=
  let fin c r := if early c then [LInv tid c; LAcq tid c; LEnd tid c r] else [LInv tid c; LEnd tid c r] in
  let mid c r := if early c then [LInv tid c; LAcq tid c; LEnd tid c r] else [LInv tid c] in
  match t with
  | TIdle => []
  | TCall c | TEnter c | TWait c => [LInv tid c]
  | TReg c | TFail c _ | THold c _ => [LInv tid c; LAcq tid c]
  | TRet c r => mid c r
  | TLook c e | TLookH c e | TLookR c e None | TJoin c e | TJoinH c e => mid c (Err e)
  | TLookR c e (Some _) | TJoinR c e _ | TStore c e _ => fin c (Err e)
  | TDone c r => fin c r
  end.
(** The error that the task is going to store although the call has had its effect. *)
Definition pend (t : tstate) : option errno :=
  match t with
  | TRet c (Err e) | TLook c e | TLookH c e | TLookR c e None | TJoin c e | TJoinH c e => if early c then Some e else None
  | TLookR c e (Some _) | TJoinR c e _ | TStore c e _ => Some e
  | _ => None
  end.

Section P.
Variable pc : pcfg.
Notation TC := (TC pc).
Notation TaskRegister := (TaskRegister pc).
Definition owns (k tid : N) (s : pst) : Prop := k < TC /\ t_id (p_t s k) = tid.
Definition full (tid : N) (s : pst) : Prop := forall k, k < TC -> t_id (p_t s k) <> 0 /\ t_id (p_t s k) <> tid.
Definition post (tid : N) (s : pst) : Prop := (exists k, owns k tid s) \/ full tid s.
Definition uniq (s : pst) : Prop := forall j k, j < TC -> k < TC -> t_id (p_t s j) = t_id (p_t s k) -> t_id (p_t s j) <> 0 -> j = k.
Definition adv (tid : N) (s s' : pst) : Prop := forall k, k < TC -> t_id (p_t s' k) = t_id (p_t s k) \/ t_id (p_t s k) = 0 /\ t_id (p_t s' k) = tid.
Lemma first_unique f n k : k < n -> f k = true -> (forall j, j < n -> f j = true -> j = k) -> first f n = Some k.
Proof.
  intros Hk H U. destruct (first f n) as [j|] eqn:E. - apply first_some in E as [A B]. rewrite (U j A B). reflexivity. - rewrite (first_none _ _ E k Hk) in H. discriminate.
Qed.
Lemma slot_owns k tid s : tid <> 0 -> uniq s -> owns k tid s -> task_slot pc tid s = Some k.
Proof.
  intros NZ U [H1 H2]. apply first_unique; auto. - now apply N.eqb_eq. - intros j Hj X. apply N.eqb_eq in X. apply U; auto; congruence.
Qed.
Lemma owns_reg k tid s : tid <> 0 -> uniq s -> owns k tid s -> TaskRegister tid s = (Ok k, s).
Proof. intros NZ U H. unfold Posix.TaskRegister. now rewrite (slot_owns _ _ _ NZ U H). Qed.
Lemma full_reg tid s : full tid s -> TaskRegister tid s = (Err EUSERS, s).
Proof.
  intros F. unfold Posix.TaskRegister. destruct (task_slot pc tid s) as [k|] eqn:E.
  - apply first_some in E as [A B]. apply N.eqb_eq in B. destruct (F k A). congruence.
  - destruct (first (fun k => t_id (p_t s k) =? 0) TC) as [k|] eqn:E2; auto. apply first_some in E2 as [A B]. apply N.eqb_eq in B. destruct (F k A). congruence.
Qed.
Lemma reg_spec tid s r s' : tid <> 0 -> uniq s -> TaskRegister tid s = (r, s') ->
  uniq s' /\ adv tid s s' /\ p_init s' = p_init s /\ match r with Ok k => owns k tid s' | Err _ => s' = s /\ full tid s end.
Proof.
  intros NZ U E. unfold Posix.TaskRegister in E. destruct (task_slot pc tid s) as [k|] eqn:E1.
  - injection E as <- <-. apply first_some in E1 as [A B]. apply N.eqb_eq in B. split; auto. split; [intros j _; auto|]. split; auto. split; auto.
  - assert (NT : forall k, k < TC -> t_id (p_t s k) <> tid). { intros k Hk X. pose proof (first_none _ _ E1 k Hk) as Y. cbn in Y. apply N.eqb_neq in Y. auto. }
    destruct (first (fun k => t_id (p_t s k) =? 0) TC) as [k|] eqn:E2.
    + injection E as <- <-. apply first_some in E2 as [A B]. apply N.eqb_eq in B. cbn. split; [|split; [|split; auto]].
      * intros i j Hi Hj. cbn. unfold upd. destruct (N.eqb_spec i k), (N.eqb_spec j k); cbn; subst; auto; intros X Y. -- exfalso. eapply NT; [exact Hj|]. auto. -- exfalso. eapply NT; [exact Hi|]. auto.
      * intros j Hj. cbn. unfold upd. destruct (N.eqb_spec j k) as [->|]; cbn; auto.
      * split; auto. cbn. unfold upd. now rewrite N.eqb_refl.
    + injection E as <- <-. split; auto. split; [intros j _; auto|]. split; auto. split; auto. intros k Hk. split; auto. intros X. pose proof (first_none _ _ E2 k Hk) as Y. cbn in Y. apply N.eqb_neq in Y. auto.
Qed.
Lemma ids_uniq s s' : same_ids s s' -> uniq s -> uniq s'.
Proof. intros [_ H] U j k. rewrite !H. apply U. Qed.
Lemma ids_adv tid s s1 s2 : adv tid s s1 -> same_ids s1 s2 -> adv tid s s2.
Proof. intros A [_ H] k Hk. rewrite H. auto. Qed.
Lemma ids_owns k tid s s' : same_ids s s' -> owns k tid s -> owns k tid s'.
Proof. intros [_ H] [A B]. split; auto. now rewrite H. Qed.
Lemma adv_owns tid s s' k t : t <> 0 -> adv tid s s' -> owns k t s -> owns k t s'.
Proof. intros NZ A [H1 H2]. split; auto. destruct (A k H1) as [->|[X _]]; congruence. Qed.
Lemma adv_full tid s s' t : adv tid s s' -> full t s -> full t s'.
Proof. intros A H k Hk. destruct (A k Hk) as [->|[X _]]; [auto|]. destruct (H k Hk). congruence. Qed.
Lemma adv_post tid s s' t : t <> 0 -> adv tid s s' -> post t s -> post t s'.
Proof. intros NZ A [[k H]|H]; [left; exists k; eapply adv_owns; eauto|right; eapply adv_full; eauto]. Qed.

(** * The serial call *)
Lemma early_pre c : early c = true -> precheck c = None.
Proof. unfold early. destruct (precheck c); auto; discriminate. Qed.
Lemma late_pre c : early c = false -> exists e, precheck c = Some e.
Proof. unfold early. destruct (precheck c); eauto; discriminate. Qed.
Lemma pre_late c e : precheck c = Some e -> early c = false.
Proof. unfold early. now intros ->. Qed.
Lemma api_ok tid c S E k s1 r s2 : tid <> 0 -> early c = true -> p_init S = true -> uniq S -> TaskRegister tid S = (Ok k, s1) -> brun (body pc tid c) s1 = (r, s2) ->
  api pc tid c (S, E) = (r, (s2, match r with Ok _ => E | Err e => store_errno (Some k) e E end)) /\ uniq s2 /\ adv tid S s2 /\ p_init s2 = true /\ owns k tid s2.
Proof.
  intros NZ EA IN U R1 R2. destruct (reg_spec _ _ _ _ NZ U R1) as (U1 & A1 & I1 & O1). pose proof (keep_brun _ (keep_body pc tid c) s1) as K. rewrite R2 in K. cbn [snd] in K.
  assert (U2 : uniq s2) by (eapply ids_uniq; eauto). assert (O2 : owns k tid s2) by (eapply ids_owns; eauto). assert (I2 : p_init s2 = true) by (destruct K; congruence).
  split; [|repeat split; auto; try apply O2; eapply ids_adv; eauto].
  unfold api. rewrite (early_pre _ EA). cbn [fst snd]. unfold PosixEnter. rewrite IN, R1, R2. destruct r as [o|e]; [reflexivity|]. cbn [posix_return]. unfold set_errno, red_errnoptr. cbn [fst]. rewrite I2. cbn [negb].
  rewrite (owns_reg _ _ _ NZ U2 O2). reflexivity.
Qed.
Lemma api_full tid c S E e : early c = true -> p_init S = true -> TaskRegister tid S = (Err e, S) ->
  exists E', api pc tid c (S, E) = (refusal c e, (S, E')) /\ e_task E' = e_task E.
Proof.
  intros EA IN R. unfold api. rewrite (early_pre _ EA). cbn [fst snd]. unfold PosixEnter. rewrite IN, R. unfold posix_return, set_errno, red_errnoptr. cbn [fst]. rewrite IN. cbn [negb]. rewrite R.
  destruct c; cbn; eexists; split; reflexivity.
Qed.
Lemma api_pre tid c S E e r s' : precheck c = Some e -> p_init S = true -> TaskRegister tid S = (r, s') ->
  api pc tid c (S, E) = (Err e, (s', store_errno (match r with Ok k => Some k | Err _ => None end) e E)).
Proof.
  intros PE IN R. unfold api. rewrite PE. unfold posix_return, set_errno, red_errnoptr. cbn [fst]. rewrite IN. cbn [negb]. rewrite R. destruct r; reflexivity.
Qed.

(** * The simulation *)
Definition local (S : pst) (tid : N) (t : tstate) : Prop :=
  match t with
  | TIdle | TCall _ => True
  | TRet c (Ok _) => early c = true
  | TDone c r => early c = false -> exists e, precheck c = Some e /\ r = Err e
  | TEnter c | TWait c | TReg c | THold c _ => early c = true
  | TFail c e => early c = true /\ TaskRegister tid S = (Err e, S)
  | TRet c (Err e) | TLook c e | TLookH c e | TLookR c e None | TJoin c e | TJoinH c e => if early c then post tid S else precheck c = Some e
  | TLookR c e (Some k) => owns k tid S /\ (early c = false -> precheck c = Some e)
  | TJoinR c e k | TStore c e k => match k with Some k => owns k tid S | None => full tid S end /\ (early c = false -> precheck c = Some e)
  end.
Definition simt (S : pst) (tid : N) (t : tstate) (s : pst) : Prop :=
  match t with
  | THold c m => keep m /\ exists k s1, TaskRegister tid S = (Ok k, s1) /\ brun m s = brun (body pc tid c) s1
  | _ => s = S
  end.
Record Inv (x0 : pst * est) (x : cst) (tr : list lbl) (S : pst) (E : est) : Prop := {
  n_init : p_init S = true;
  n_pi : p_init (c_s x) = true;
  n_uniq : uniq S;
  n_zero : c_t x 0 = TIdle;
  n_lock : forall t, holding (c_t x t) = true <-> c_lock x = Some t;
  n_sim : match c_lock x with None => c_s x = S | Some t => simt S t (c_t x t) (c_s x) end;
  n_local : forall t, local S t (c_t x t);
  n_err : forall k, k < TC -> e_task E k = match pend (c_t x (t_id (p_t S k))) with Some e => Some e | None => e_task (c_e x) k end;
  n_tr : forall t, exists l0, whole t l0 /\ mine t tr = l0 ++ part t (c_t x t);
  n_acq : acqs tr = called (ends tr) ++ match c_lock x with None => [] | Some t => entered t (c_t x t) end;
  n_ser : serial pc x0 (ends tr) (S, E) }.

Lemma upd_same {A} (f : N -> A) k v : upd f k v k = v. Proof. unfold upd. now rewrite N.eqb_refl. Qed.
Lemma upd_other {A} (f : N -> A) k v j : j <> k -> upd f k v j = f j. Proof. intros H. unfold upd. apply N.eqb_neq in H. now rewrite H. Qed.
Definition cur (l : option N) (ts : N -> tstate) : list (N * pcall) := match l with None => [] | Some t => entered t (ts t) end.
Lemma local_adv tid S S' t ts : t <> tid -> t <> 0 -> adv tid S S' -> (forall c e, ts <> TFail c e) -> local S t ts -> local S' t ts.
Proof.
  intros N1 N2 A NF. assert (Q : post t S -> post t S') by (eapply adv_post; eauto). assert (O : forall k, owns k t S -> owns k t S') by (intros; eapply adv_owns; eauto). assert (F : full t S -> full t S') by (eapply adv_full; eauto).
  destruct ts as [|c|c|c|c|c e|c m|c [o|e]|c e|c e|c e [k|]|c e|c e|c e [k|]|c e [k|]|c r]; cbn; auto; try (destruct (early c); auto; fail); intros [H1 H2]; auto.
  exfalso. eapply NF; eauto.
Qed.
Lemma step_inv x0 x tr S E tid s' e' l' t' l S' E' : Inv x0 x tr S E -> tid <> 0 ->
  (holding (c_t x tid) = true \/ S' = S) -> adv tid S S' -> uniq S' -> p_init S' = true -> p_init s' = true ->
  serial pc x0 (ends (tr ++ l)) (S', E') ->
  Forall (fun x => lbl_tid x = tid) l ->
  (l' = if holding t' then Some tid else if holding (c_t x tid) then None else c_lock x) ->
  (holding t' = true -> holding (c_t x tid) = true \/ c_lock x = None) ->
  (if holding t' then simt S' tid t' s' else if holding (c_t x tid) then s' = S' else s' = c_s x) ->
  local S' tid t' ->
  (forall k, k < TC -> t_id (p_t S' k) <> tid -> e_task E' k = e_task E k /\ e_task e' k = e_task (c_e x) k) ->
  (forall k, owns k tid S' -> e_task E' k = match pend t' with Some e => Some e | None => e_task e' k end) ->
  (forall l0, whole tid l0 -> exists l1, whole tid l1 /\ l0 ++ part tid (c_t x tid) ++ l = l1 ++ part tid t') ->
  (entered tid (c_t x tid) ++ acqs l = called (ends l) ++ entered tid t') ->
  (holding (c_t x tid) = false -> ends l = []) ->
  Inv x0 (mkC s' e' l' (upd (c_t x) tid t')) (tr ++ l) S' E'.
Proof.
  intros [H1 H2 H3 H0 H4 H5 H6 H7 H8 H9 H10] NZ HS A U I1 I2 SR FL EL HL SI LO EO EM TR AC NE.
  (* the mutex is held by tid, or not at all, or by another task *)
  assert (HX : forall t, t <> tid -> holding (c_t x t) = true -> holding (c_t x tid) = false).
  { intros t Ht X. destruct (holding (c_t x tid)) eqn:Y; auto. apply H4 in X, Y. congruence. }
  assert (NF : forall t c e, t <> tid -> c_t x t = TFail c e -> S' = S).
  { intros t c e Ht X. destruct HS as [HS|HS]; auto. rewrite (HX t Ht) in HS; [discriminate|]. now rewrite X. }
  split; cbn [c_s c_e c_lock c_t]; auto.
  - now rewrite upd_other by auto.
  - intros t. destruct (N.eq_dec t tid) as [->|Ht].
    + rewrite upd_same. rewrite EL. destruct (holding t') eqn:Y; [tauto|]. destruct (holding (c_t x tid)) eqn:Z; [split; discriminate|]. rewrite <- H4, Z. tauto.
    + rewrite upd_other by auto. rewrite EL. split; intros X.
      * destruct (holding t') eqn:Y. -- destruct (HL eq_refl) as [HL'|HL']. ++ rewrite (HX t Ht X) in HL'. discriminate. ++ apply H4 in X. congruence. -- rewrite (HX t Ht X). now apply H4.
      * destruct (holding t'); [congruence|]. destruct (holding (c_t x tid)); [discriminate|]. now apply H4.
  - rewrite EL. destruct (holding t') eqn:Y; [now rewrite upd_same|]. destruct (holding (c_t x tid)) eqn:Z; auto. destruct HS as [HS| ->]; [discriminate|]. rewrite SI.
    destruct (c_lock x) as [u|] eqn:LK; auto. rewrite upd_other; auto. intros ->. apply not_true_iff_false in Z. apply Z. now apply H4.
  - intros t. destruct (N.eq_dec t tid) as [->|Ht]; [now rewrite upd_same|]. rewrite upd_other by auto. destruct (N.eq_dec t 0) as [->|Hz]; [rewrite H0; exact Logic.I|].
    assert (Q : (forall c e, c_t x t <> TFail c e) \/ S' = S). { destruct (c_t x t) eqn:ET; try (left; intros; discriminate). right. eapply NF; eauto. }
    destruct Q as [Q| ->]; [|apply H6]. apply (local_adv tid S S'); auto.
  - intros k Hk. destruct (N.eq_dec (t_id (p_t S' k)) tid) as [X|X].
    + rewrite X, upd_same. apply EM. split; auto.
    + rewrite upd_other by auto. destruct (EO k Hk X) as [-> ->]. rewrite (H7 k Hk). destruct (A k Hk) as [->|[_ Y]]; [auto|congruence].
  - intros t. destruct (H8 t) as (l0 & W & M). destruct (N.eq_dec t tid) as [->|Ht].
    + rewrite upd_same. destruct (TR l0 W) as (l1 & W1 & E1). exists l1. split; auto. rewrite mine_app, M, <- app_assoc, <- E1. do 2 f_equal. unfold mine. clear -FL. induction FL as [|y l Hy FL IH]; auto. cbn. now rewrite (proj2 (N.eqb_eq _ _) Hy), IH.
    + rewrite upd_other by auto. exists l0. split; auto. rewrite mine_app, M. assert (Q : mine t l = []); [|now rewrite Q, app_nil_r]. unfold mine. clear -FL Ht. induction FL as [|y l Hy FL IH]; auto. cbn. rewrite (proj2 (N.eqb_neq _ _)); auto. congruence.
  - rewrite acqs_app, ends_app, called_app, H9, <- !app_assoc. f_equal. rewrite EL.
    assert (Q : (match c_lock x with None => [] | Some t => entered t (c_t x t) end) ++ acqs l = called (ends l) ++ match (if holding t' then Some tid else if holding (c_t x tid) then None else c_lock x) with Some t => entered t (upd (c_t x) tid t' t) | None => [] end); [|exact Q].
    destruct (holding (c_t x tid)) eqn:Z.
    + pose proof (proj1 (H4 tid) Z) as ->. rewrite AC. f_equal. destruct (holding t') eqn:Y; [now rewrite upd_same|]. destruct t'; cbn in *; auto; discriminate.
    + assert (Q : entered tid (c_t x tid) = []) by (destruct (c_t x tid); cbn in *; auto; discriminate). rewrite Q in AC. cbn in AC.
      destruct (holding t') eqn:Y.
      * destruct (HL eq_refl) as [HL'| ->]; [discriminate|]. cbn [app]. rewrite upd_same. auto.
      * assert (Q2 : entered tid t' = []) by (destruct t'; cbn in *; auto; discriminate). rewrite Q2, app_nil_r in AC. rewrite AC.
        destruct (c_lock x) as [u|] eqn:LK; [|rewrite app_nil_r; reflexivity]. rewrite upd_other; [|intros ->; apply not_true_iff_false in Z; apply Z; now apply H4].
        rewrite (NE eq_refl). now rewrite app_nil_r.
Qed.

Lemma adv_refl tid S : adv tid S S. Proof. intros k _. auto. Qed.
(** A step without effect in the serial run. *)
Lemma silent_inv x0 x tr S E tid l' t' l : Inv x0 x tr S E -> tid <> 0 -> ends l = [] -> (c_s x = S \/ holding (c_t x tid) = false /\ holding t' = false) ->
  Forall (fun x => lbl_tid x = tid) l ->
  (l' = if holding t' then Some tid else if holding (c_t x tid) then None else c_lock x) ->
  (holding t' = true -> holding (c_t x tid) = true \/ c_lock x = None) -> (forall c m, t' <> THold c m) ->
  local S tid t' -> (pend t' = pend (c_t x tid)) ->
  (forall l0, whole tid l0 -> exists l1, whole tid l1 /\ l0 ++ part tid (c_t x tid) ++ l = l1 ++ part tid t') ->
  (entered tid (c_t x tid) ++ acqs l = entered tid t') ->
  Inv x0 (mkC (c_s x) (c_e x) l' (upd (c_t x) tid t')) (tr ++ l) S E.
Proof.
  intros I NZ EN CS FL EL HL NH LO PE TR AC. pose proof I as [H1 H2 H3 H0 H4 H5 H6 H7 H8 H9 H10]. eapply step_inv; eauto using adv_refl.
  - rewrite ends_app, EN, app_nil_r. auto.
  - destruct (holding t') eqn:Y.
    + destruct CS as [CS|[_ X]]; [|congruence]. destruct t'; cbn; auto. now elim (NH c m).
    + destruct (holding (c_t x tid)) eqn:Z; auto. destruct CS as [CS|[X _]]; auto. congruence.
  - intros k [Hk <-]. rewrite PE. apply H7. auto.
  - rewrite EN. exact AC.
Qed.
Lemma lock_sim x0 x tr S E tid : Inv x0 x tr S E -> holding (c_t x tid) = true -> simt S tid (c_t x tid) (c_s x).
Proof. intros [_ _ _ _ H4 H5 _ _ _ _ _] H. apply H4 in H. now rewrite H in H5. Qed.
Lemma free_sim x0 x tr S E : Inv x0 x tr S E -> c_lock x = None -> c_s x = S.
Proof. intros [_ _ _ _ H4 H5 _ _ _ _ _] H. now rewrite H in H5. Qed.
Lemma stay tid l : forall l0, whole tid l0 -> exists l1, whole tid l1 /\ l0 ++ l ++ [] = l1 ++ l.
Proof. intros l0 W. exists l0. now rewrite app_nil_r. Qed.
Lemma more tid l l' : forall l0, whole tid l0 -> exists l1, whole tid l1 /\ l0 ++ l ++ l' = l1 ++ (l ++ l').
Proof. intros l0 W. exists l0. auto. Qed.
Ltac stt := let l := fresh "l" in let W := fresh "W" in intros l W; exists l; split; [exact W|now rewrite ?app_nil_r].
Theorem cstep_inv x0 x tr S E tid l x' : Inv x0 x tr S E -> tid <> 0 -> cstep pc x tid l x' -> exists S' E', Inv x0 x' (tr ++ l) S' E'.
Proof.
  intros I NZ ST. pose proof (n_local _ _ _ _ _ I tid) as LO. pose proof (n_pi _ _ _ _ _ I) as PI. pose proof (n_init _ _ _ _ _ I) as IN. pose proof (n_uniq _ _ _ _ _ I) as U.
  pose proof (lock_sim _ _ _ _ _ tid I) as LS. pose proof (proj1 (n_lock _ _ _ _ _ I tid)) as HL. pose proof (n_err _ _ _ _ _ I) as HE. pose proof (n_ser _ _ _ _ _ I) as SR.
  destruct ST as [c T|c T|c T IC|c T IC|c T LK|c k s' T R|c e s' T R|c e T|c X lb f k T|c r T|c o T|c e T IC|c e T IC|c e T LK|c e T|c e k T|c e T|c e T LK|c e r s' T R|c e k T|c e k T|c r T].
  all: rewrite T in LO, LS, HL; cbn in LO; cbn [holding] in LS, HL; try specialize (LS eq_refl); try specialize (HL eq_refl); cbn [simt] in LS; try congruence.
  - exists S, E. apply (silent_inv x0 x tr S E tid); auto; rewrite ?T; cbn; auto; try discriminate; try stt.
  - exists S, E. destruct (precheck c) as [e|] eqn:PE; apply (silent_inv x0 x tr S E tid); auto; rewrite ?T; cbn; auto; try discriminate; rewrite ?(pre_late _ _ PE); auto; try stt.
    unfold early. now rewrite PE.
  - exists S, E. apply (silent_inv x0 x tr S E tid); auto; rewrite ?T; cbn; auto; try discriminate; try stt.
  - exists S, E. apply (silent_inv x0 x tr S E tid); auto; rewrite ?T; cbn; auto; try discriminate; try stt.
    all: try (left; eapply free_sim; eauto; fail).
  - (* registered *)
    rewrite LS in R. exists S, E. destruct (reg_spec _ _ _ _ NZ U R) as (U1 & A1 & I1 & O1).
    apply (step_inv x0 x tr S E tid); eauto using adv_refl; rewrite ?T; cbn; auto; try discriminate; try congruence; try (now rewrite app_nil_r); try stt.
    + split; [apply keep_body|]. exists k, s'. auto.
    + intros j [Hj <-]. rewrite (HE j Hj), T. reflexivity.
  - (* no slot *)
    rewrite LS in R. destruct (reg_spec _ _ _ _ NZ U R) as (U1 & A1 & I1 & -> & O1). exists S, E. 
    apply (step_inv x0 x tr S E tid); eauto using adv_refl; rewrite ?T; cbn; auto; try discriminate; try (now rewrite app_nil_r); try stt.
    intros j [Hj <-]. rewrite (HE j Hj), T. reflexivity.
  - (* refused *)
    destruct LO as [EA R]. destruct (api_full _ _ _ E _ EA IN R) as (E' & AP & ET). destruct (reg_spec _ _ _ _ NZ U R) as (_ & _ & _ & _ & FU).
    exists S, E'. unfold after_err. assert (Q : part tid (match refusal c e with Ok o => TDone c (Ok o) | Err e => TRet c (Err e) end) = [LInv tid c; LAcq tid c; LEnd tid c (refusal c e)]). { destruct (refusal c e); cbn; rewrite EA; auto. }
    assert (H : holding (match refusal c e with Ok o => TDone c (Ok o) | Err e => TRet c (Err e) end) = false) by (destruct (refusal c e); auto).
    apply (step_inv x0 x tr S E tid); eauto using adv_refl; rewrite ?T, ?H, ?Q; cbn; auto; try discriminate.
    + rewrite ends_app. cbn. econstructor; eauto.
    + destruct (refusal c e); cbn; [congruence|]. rewrite EA. right. auto.
    + intros; rewrite ET; auto.
    + intros j [Hj Hj2]. destruct (FU j Hj). congruence.
    + apply (more tid [LInv tid c; LAcq tid c]).
    + unfold called. cbn. rewrite EA. destruct (refusal c e); auto.
  - (* one action *)
    exists S, E. destruct LS as [[K1 K2] (j & s1 & R & BR)].
    apply (step_inv x0 x tr S E tid); eauto using adv_refl; rewrite ?T; cbn; auto; try discriminate; try (now rewrite app_nil_r); try stt.
    + destruct (K1 (c_s x)). congruence.
    + split; auto. exists j, s1. auto.
    + intros i [Hj <-]. rewrite (HE i Hj), T. reflexivity.
  - (* the end of the function *)
    destruct LS as [_ (j & s1 & R & BR)]. cbn in BR. destruct (api_ok _ _ _ E _ _ _ _ NZ LO IN U R (eq_sym BR)) as (AP & U2 & A2 & I2 & O2).
    exists (c_s x), (match r with Ok _ => E | Err e => store_errno (Some j) e E end).
    apply (step_inv x0 x tr S E tid); eauto using adv_refl; rewrite ?T; cbn; auto; try discriminate.
    + rewrite ends_app. cbn. econstructor; eauto.
    + destruct r; auto. rewrite LO. left. eauto.
    + intros k Hk N1. split; auto. destruct r; auto. cbn. rewrite upd_other; auto. intros ->. apply N1, O2.
    + intros k OK. assert (k = j) as ->. { destruct OK as [Q1 Q2], O2 as [Q3 Q4]. apply U2; auto; congruence. } destruct r as [o|e].
      * destruct OK as [Hk Ek]. rewrite (HE j Hk). destruct (A2 j Hk) as [Q|[Q _]]. -- rewrite <- Q, Ek, T. reflexivity. -- rewrite Q, (n_zero _ _ _ _ _ I). reflexivity.
      * cbn. rewrite LO, upd_same. auto.
    + rewrite LO. apply (more tid [LInv tid c; LAcq tid c]).
    + unfold called. cbn. now rewrite LO.
  - exists S, E. apply (silent_inv x0 x tr S E tid); auto; rewrite ?T; cbn; auto; try discriminate; try congruence. intros l0 W. exists l0. rewrite LO, app_nil_r. auto.
  - exists S, E. apply (silent_inv x0 x tr S E tid); auto; rewrite ?T; cbn; auto; try discriminate; try stt.
  - exists S, E. apply (silent_inv x0 x tr S E tid); auto; rewrite ?T; cbn; auto; try discriminate; try stt. left. eapply free_sim; eauto.
  - (* the scan of red_errnoptr *)
    rewrite LS. destruct (early c) eqn:EA.
    + exists S, E. apply (silent_inv x0 x tr S E tid); auto; rewrite ?T; cbn; auto; try discriminate; rewrite ?EA; auto; try stt.
      * destruct (task_slot pc tid S) as [k|] eqn:TS; [|rewrite ?EA; auto]. split; [|congruence]. apply first_some in TS as [A B]. apply N.eqb_eq in B. split; auto.
      * destruct (task_slot pc tid S); cbn; rewrite ?EA; auto.
      * destruct (task_slot pc tid S); cbn; rewrite ?EA; stt.
    + destruct (task_slot pc tid S) as [k|] eqn:TS.
      * assert (O : owns k tid S). { apply first_some in TS as [A B]. apply N.eqb_eq in B. split; auto. }
        pose proof (api_pre _ _ _ E _ _ _ LO IN (owns_reg _ _ _ NZ U O)) as AP. exists S, (store_errno (Some k) e E).
        apply (step_inv x0 x tr S E tid); eauto using adv_refl; rewrite ?T; cbn; auto; try discriminate.
        -- rewrite ends_app. cbn. econstructor; eauto.
        -- intros j Hj N1. split; auto. rewrite upd_other; auto. intros ->. apply N1, O.
        -- intros j OK. assert (j = k) as ->. { destruct OK as [Q1 Q2], O as [Q3 Q4]. apply U; auto; congruence. } now rewrite upd_same.
        -- rewrite EA. apply (more tid [LInv tid c]).
        -- unfold called. cbn. now rewrite EA.
      * exists S, E. apply (silent_inv x0 x tr S E tid); auto; rewrite ?T; cbn; auto; try discriminate; rewrite ?EA; auto; try stt.
  - exists S, E. apply (silent_inv x0 x tr S E tid); auto; rewrite ?T; cbn; auto; try discriminate; try stt.
  - exists S, E. apply (silent_inv x0 x tr S E tid); auto; rewrite ?T; cbn; auto; try discriminate; try stt.
  - exists S, E. apply (silent_inv x0 x tr S E tid); auto; rewrite ?T; cbn; auto; try discriminate; try stt. left. eapply free_sim; eauto.
  - (* the second registration *)
    rewrite LS in R. destruct (early c) eqn:EA.
    + exists S, E. assert (Q : s' = S /\ match r with Ok k => owns k tid S | Err _ => full tid S end).
      { destruct LO as [[k O]|F]. - rewrite (owns_reg _ _ _ NZ U O) in R. injection R as <- <-. auto. - rewrite (full_reg _ _ F) in R. injection R as <- <-. auto. }
      destruct Q as [-> Q]. unfold set_s. rewrite <- LS at 1.
      apply (silent_inv x0 x tr S E tid); auto; rewrite ?T; cbn; auto; try discriminate; rewrite ?EA; auto; try stt.
      destruct r; split; auto; congruence.
    + destruct (reg_spec _ _ _ _ NZ U R) as (U1 & A1 & I1 & O1). pose proof (api_pre _ _ _ E _ _ _ LO IN R) as AP. exists s', (store_errno (match r with Ok k => Some k | Err _ => None end) e E).
      apply (step_inv x0 x tr S E tid); eauto using adv_refl; rewrite ?T; cbn; auto; try discriminate; try congruence.
      * rewrite ends_app. cbn. econstructor; eauto.
      * destruct r; split; auto. destruct O1. now subst.
      * intros j Hj N1. split; auto. destruct r; auto. cbn. rewrite upd_other; auto. intros ->. apply N1, O1.
      * intros j OK. destruct r as [k|er]; cbn.
        -- assert (j = k) as ->. { destruct OK as [Q1 Q2], O1 as [Q3 Q4]. apply U1; auto; congruence. } now rewrite upd_same.
        -- destruct O1 as [-> F], OK as [Q1 Q2]. destruct (F j Q1). congruence.
      * rewrite EA. apply (more tid [LInv tid c]).
      * unfold called. cbn. now rewrite EA.
  - exists S, E. apply (silent_inv x0 x tr S E tid); auto; rewrite ?T; cbn; auto; try discriminate; try stt.
  - (* the store *)
    exists S, E. destruct LO as [LO PE]. apply (step_inv x0 x tr S E tid); eauto using adv_refl; rewrite ?T; cbn; auto; try discriminate; try (now rewrite app_nil_r); try stt.
    + intros H. eauto.
    + intros j Hj N1. split; auto. destruct k; cbn; auto. rewrite upd_other; auto. intros ->. apply N1, LO.
    + intros j OK. destruct k as [k|]; cbn.
      * assert (j = k) as ->. { destruct OK as [Q1 Q2], LO as [Q3 Q4]. apply U; auto; congruence. } rewrite upd_same. destruct OK as [Q1 Q2]. rewrite (HE k Q1), Q2, T. reflexivity.
      * destruct OK as [Q1 Q2]. destruct (LO j Q1). congruence.
  - (* the return *)
    exists S, E. apply (silent_inv x0 x tr S E tid); auto; rewrite ?T; cbn; auto; try discriminate; try stt.
    intros l0 W. destruct (early c) eqn:EA.
    + eexists. split; [apply (W_call tid l0 c r W EA)|]. cbn. now rewrite app_nil_r.
    + destruct (LO eq_refl) as (e & PE & ->). eexists. split; [apply (W_pre tid l0 c e W PE)|]. cbn. now rewrite app_nil_r.
Qed.

End P.
