(** C47: FSE calls from concurrent tasks are serialised. *)
From Verif Require Import Base Count FsState FsMach FsInv FsVolume FsVolumeG FsReach PropFs FseSpec FseVol FseReach PropFse FseApi PropFseApi FseConc.
Ltac Zify.zify_post_hook ::= idtac.

(** * What a task has seen *)
Definition concerns (tid : N) (l : lbl) : bool := match l with LInv t _ _ | LAcq t _ _ | LEnd t _ _ _ | LRet t _ _ _ => t =? tid | LCrash _ => true | LInit _ | LShut _ => false end.
Definition mine (tid : N) (tr : list lbl) : list lbl := filter (concerns tid) tr.
(** A call under way. *)
Inductive begun (tid : N) : list lbl -> Prop :=
| B_none : begun tid []
| B_inv n c : begun tid [LInv tid n c]
| B_acq n c : begun tid [LInv tid n c; LAcq tid n c]
| B_end n c r : begun tid [LInv tid n c; LAcq tid n c; LEnd tid n c r]
| B_ref n c : begun tid [LInv tid n c; LEnd tid n c (Err EINVAL)].
(** The task has made a sequence of calls.  Each had its effect once, between call and return, with the result that was
    returned, and holding the mutex unless it was refused; a power loss ends the call under way. *)
Inductive whole (tid : N) : list lbl -> Prop :=
| W_nil : whole tid []
| W_call l n c r : whole tid l -> whole tid (l ++ [LInv tid n c; LAcq tid n c; LEnd tid n c r; LRet tid n c r])
| W_ref l n c : whole tid l -> whole tid (l ++ [LInv tid n c; LEnd tid n c (Err EINVAL); LRet tid n c (Err EINVAL)])
| W_crash l p w : whole tid l -> begun tid p -> whole tid (l ++ p ++ [LCrash w]).
Lemma mine_app t a b : mine t (a ++ b) = mine t a ++ mine t b.
Proof. apply filter_app. Qed.

Definition holding (t : tstate) : bool := match t with TCur _ _ | TFail _ _ | THold _ _ | TSeen _ _ _ | TLeave _ _ _ => true | _ => false end.
(** The labels of the call under way. *)
Definition part (tid : N) (t : tstate) (p : list lbl) : Prop :=
  match t with
  | TIdle => p = []
  | TCall n c | TEnter n c | TWait n c => p = [LInv tid n c]
  | TCur n c | TFail n c | THold n c | TSeen n c _ => p = [LInv tid n c; LAcq tid n c]
  | TLeave n c r => p = [LInv tid n c; LAcq tid n c; LEnd tid n c r]
  | TDone n c r => p = [LInv tid n c; LAcq tid n c; LEnd tid n c r] \/ r = Err EINVAL /\ p = [LInv tid n c; LEnd tid n c r]
  end.

Section P.
Variable NVOL : N.
Variable gs : N -> cfg.
Variable atom : bool.
Variable MM TM TD : N.
Notation ystep := (ystep NVOL gs atom MM TM TD).
Notation ysteps := (ysteps NVOL gs atom MM TM TD).
Notation cstep := (cstep NVOL gs atom MM TM TD).
Notation csteps := (csteps NVOL gs atom MM TM TD).
Notation FseCall := (FseCall NVOL gs atom MM TM).

(** What holds for a task besides. *)
Definition local (x : cst) (t : tstate) : Prop :=
  match t with
  | TIdle | TCall _ _ | TDone _ _ _ => True
  | TEnter n c => toolong c = false
  | TWait n c | TCur n c => toolong c = false /\ fy_init (c_y x) = true
  | TFail n c => toolong c = false /\ fy_init (c_y x) = true /\ NVOL <= n
  | THold n c => toolong c = false /\ fy_init (c_y x) = true /\ n < NVOL /\ c_cur x = n
  | TSeen n c b => toolong c = false /\ fy_init (c_y x) = true /\ n < NVOL /\ c_cur x = n /\ b = v_mnt (fy_vol (c_y x) n) /\ looks c = true
  | TLeave n c r => fy_init (c_y x) = true
  end.
Record Inv (y0 : fsys) (x : cst) (tr : list lbl) : Prop := {
  n_ser : ysteps y0 (ends tr) (c_y x);
  n_lock : forall t, c_lock x = Some t <-> holding (c_t x t) = true;
  n_local : forall t, local x (c_t x t);
  n_mine : forall t, exists l p, whole t l /\ part t (c_t x t) p /\ mine t tr = l ++ p }.

Lemma ends_app a b : ends (a ++ b) = ends a ++ ends b.
Proof. induction a as [|x a IH]; auto. cbn. destruct x as [| | | |[[n c]|]| |]; auto; cbn; now rewrite IH. Qed.
Lemma ysteps_app y t y1 t' y2 : ysteps y t y1 -> ysteps y1 t' y2 -> ysteps y (t ++ t') y2.
Proof. induction 1; cbn; intros; auto; [eapply Ys_cons|eapply Ys_back]; eauto. Qed.
Lemma ysteps_one y t y1 e y2 : ysteps y t y1 -> ystep y1 (Some e) y2 -> ysteps y (t ++ [e]) y2.
Proof. intros A B. eapply ysteps_app; eauto. eapply Ys_cons; eauto. constructor. Qed.
Lemma ysteps_back y t y1 y2 : ysteps y t y1 -> ystep y1 None y2 -> ysteps y t y2.
Proof. intros A B. rewrite <- (app_nil_r t). eapply ysteps_app; eauto. eapply Ys_back; eauto. constructor. Qed.
(** The body under the mutex is the serial call. *)
Lemma fbody_exec g c b o1 o2 v : (looks c = true -> b = v_mnt v) -> fbody atom MM TM g c b o1 o2 v = fexec g atom MM TM c o1 o2 v.
Proof. intros H. destruct c; try reflexivity; cbn in *; rewrite H by reflexivity; destruct (v_mnt v); reflexivity. Qed.
Lemma ready_local x tid n c b : ready (c_t x tid) n c b -> local x (c_t x tid) ->
  toolong c = false /\ fy_init (c_y x) = true /\ n < NVOL /\ c_cur x = n /\ (looks c = true -> b = v_mnt (fy_vol (c_y x) n)) /\ holding (c_t x tid) = true /\
  forall p, part tid (c_t x tid) p -> p = [LInv tid n c; LAcq tid n c].
Proof. intros [[-> L]|[-> L]]; cbn; intros H; repeat (split; [tauto|]); [tauto|]. split; [congruence|tauto]. Qed.

(** Steps that touch only the task's own place. *)
Lemma inv_move y0 x tr tid t l y' cur' lk' : Inv y0 x tr ->
  ysteps y0 (ends (tr ++ l)) y' ->
  fy_init y' = fy_init (c_y x) -> (forall u, u <> tid -> holding (c_t x u) = true -> y' = c_y x /\ cur' = c_cur x) ->
  (forall u, lk' = Some u <-> holding (upd (c_t x) tid t u) = true) ->
  local (mkC y' cur' lk' (upd (c_t x) tid t)) t ->
  (forall l0, In l0 l -> match l0 with LInv u _ _ | LAcq u _ _ | LEnd u _ _ _ | LRet u _ _ _ => u = tid | _ => False end) ->
  (forall l0 p, whole tid l0 -> part tid (c_t x tid) p -> exists l1 p1, whole tid l1 /\ part tid t p1 /\ (l0 ++ p) ++ l = l1 ++ p1) ->
  Inv y0 (mkC y' cur' lk' (upd (c_t x) tid t)) (tr ++ l).
Proof.
  intros [H1 H2 H3 H4] S IN KE LK LO LB WH. split; cbn [c_y c_lock c_t]; auto.
  - intros u. unfold upd. destruct (N.eqb_spec u tid) as [->|NE]; [exact LO|]. specialize (H3 u). specialize (KE u NE). destruct (c_t x u); cbn in *; auto; try rewrite IN; try tauto; destruct KE as [-> ->]; auto.
  - intros u. destruct (H4 u) as (l0 & p & W & P & M). unfold upd. destruct (N.eqb_spec u tid) as [->|NE].
    + destruct (WH l0 p W P) as (l1 & p1 & W1 & P1 & E). exists l1, p1. split; auto. split; auto. rewrite mine_app, M. rewrite <- E. f_equal.
      clear -LB. unfold mine. induction l as [|a l IH]; auto. cbn [filter]. rewrite IH by (intros; apply LB; right; auto). specialize (LB a (or_introl eq_refl)). destruct a; cbn; try contradiction; subst; now rewrite N.eqb_refl.
    + exists l0, p. split; auto. split; auto. rewrite mine_app, M. enough (E : mine u l = []) by (rewrite E; apply app_nil_r).
      clear -LB NE. unfold mine. induction l as [|a l IH]; auto. cbn [filter]. rewrite IH by (intros; apply LB; right; auto). specialize (LB a (or_introl eq_refl)). destruct a; cbn; try contradiction; subst; destruct (N.eqb_spec tid u); congruence.
Qed.
(** Without change of the mutex and the globals. *)
Lemma inv_go y0 x tr tid t l : Inv y0 x tr -> ysteps y0 (ends (tr ++ l)) (c_y x) -> holding t = holding (c_t x tid) -> local (goto x tid t) t ->
  (forall l0, In l0 l -> match l0 with LInv u _ _ | LAcq u _ _ | LEnd u _ _ _ | LRet u _ _ _ => u = tid | _ => False end) ->
  (forall l0 p, whole tid l0 -> part tid (c_t x tid) p -> exists l1 p1, whole tid l1 /\ part tid t p1 /\ (l0 ++ p) ++ l = l1 ++ p1) ->
  Inv y0 (goto x tid t) (tr ++ l).
Proof.
  intros I S HE LO LB WH. apply inv_move; auto. intros u. rewrite (n_lock _ _ _ I u). unfold upd. destruct (N.eqb_spec u tid) as [->|]; [now rewrite HE|tauto].
Qed.
Lemma lock_other y0 x tr tid u : Inv y0 x tr -> holding (c_t x tid) = true -> u <> tid -> holding (c_t x u) = true -> False.
Proof. intros I A NE B. apply (n_lock _ _ _ I) in A, B. congruence. Qed.
Lemma refuse y0 x tr tid n c : Inv y0 x tr -> toolong c = true \/ fy_init (c_y x) = false \/ NVOL <= n -> ysteps y0 (ends (tr ++ [LEnd tid n c (Err EINVAL)])) (c_y x).
Proof.
  intros I H. rewrite ends_app. eapply ysteps_one; [apply I|]. eapply Y_call with (o1 := (0, fun _ => BJunk)) (o2 := (0, fun _ => BJunk)) (t := []).
  - intros A B C. exfalso. destruct H as [H|[H|H]]; try congruence. lia.
  - unfold FseApi.FseCall. destruct (toolong c); auto. destruct (fy_init (c_y x)); cbn [negb]; auto. destruct (N.leb_spec NVOL n); auto. destruct H as [H|[H|H]]; try discriminate. lia.
Qed.
Lemma inv_crash y0 x tr y' w : Inv y0 x tr -> ysteps y0 (ends (tr ++ [LCrash w])) y' -> Inv y0 (mkC y' 0 None (fun _ => TIdle)) (tr ++ [LCrash w]).
Proof.
  intros [H1 H2 H3 H4] S. split; cbn; auto.
  - intros t. split; discriminate.
  - intros t. destruct (H4 t) as (l & p & W & P & M). exists (l ++ p ++ [LCrash w]), []. split; [|split; [reflexivity|]].
    + apply W_crash; auto. destruct (c_t x t); cbn in P; try (destruct P as [P|[-> P]]); subst p; constructor.
    + rewrite mine_app, M. cbn. now rewrite app_nil_r, app_assoc.
Qed.
Lemma inv_rest y0 x tr y' l : Inv y0 x tr -> c_lock x = None -> (forall t, c_t x t = TIdle) -> (forall t, mine t l = []) -> ysteps y0 (ends (tr ++ l)) y' -> Inv y0 (set_y y' x) (tr ++ l).
Proof.
  intros [H1 H2 H3 H4] LK ID NM S. split; cbn; auto.
  - intros t. rewrite ID. exact I.
  - intros t. destruct (H4 t) as (l0 & p & W & P & M). exists l0, p. rewrite mine_app, NM, app_nil_r. auto.
Qed.
Ltac lbs := intros l0 H0; cbn in H0; repeat destruct H0 as [<-|H0]; try reflexivity; try contradiction.
Ltac prt H := intros l0 p W P; rewrite H in P; cbn in P; subst p.
Ltac same l0 := eexists l0, _; split; [assumption|]; split; [cbn; eauto|rewrite <- ?app_assoc; cbn; rewrite ?app_nil_r; reflexivity].
Ltac samel l0 := eexists l0, _; split; [assumption|]; split; [left; reflexivity|rewrite <- ?app_assoc; cbn; rewrite ?app_nil_r; reflexivity].
Lemma inv_step y0 x tr tid l x' : Inv y0 x tr -> cstep x tid l x' -> Inv y0 x' (tr ++ l).
Proof.
  intros I S. pose proof I as [H1 H2 H3 H4]. pose proof (H3 tid) as LO.
  assert (S0 : ysteps y0 (ends (tr ++ [])) (c_y x)) by (now rewrite app_nil_r).
  inversion S as [n c T|n c T TL|n c T TL|n c T IN|n c T IN|n c T LK|n c T LT|n c T GE|n c T|n c T LC|n c b o1 o2 r v t RD AL RM EX|n c r T|n c r T|n c b o1 o2 r v t sn d ds RD AL RM EX IS SD LS OT|ds LS|r y' LK ID E|r y' LK ID E|m v' LK B]; subst; clear S.
  - apply inv_go; auto; [rewrite ends_app; cbn; now rewrite app_nil_r|now rewrite T|exact Logic.I|lbs|]. prt T. same l0.
  - apply inv_go; auto; [now rewrite T|lbs|]. prt T. same l0.
  - apply inv_go; auto; [apply (refuse _ _ _ _ _ _ I); auto|now rewrite T|exact Logic.I|lbs|]. prt T. same l0.
  - rewrite T in LO. apply inv_go; auto; [now rewrite T|cbn in *; auto|lbs|]. prt T. same l0.
  - rewrite T in LO. apply inv_go; auto; [apply (refuse _ _ _ _ _ _ I); auto|now rewrite T|exact Logic.I|lbs|]. prt T. same l0.
  - rewrite T in LO. apply (inv_move y0 x); auto; [rewrite ends_app; cbn; now rewrite app_nil_r| |lbs|].
    + intros u. cbn [set_lock c_lock]. unfold upd. destruct (N.eqb_spec u tid) as [->|NE]; [split; auto|]. rewrite <- H2, LK. split; congruence.
    + prt T. same l0.
  - rewrite T in LO. apply (inv_move y0 x); auto.
    + intros u NE HU. exfalso. apply (lock_other _ _ _ tid u I); auto. now rewrite T.
    + intros u. cbn [c_lock set_cur]. rewrite (H2 u). unfold upd. destruct (N.eqb_spec u tid) as [->|]; [rewrite T|]; tauto.
    + cbn in *; tauto.
    + lbs.
    + prt T. same l0.
  - rewrite T in LO. apply inv_go; auto; [now rewrite T|cbn in *; tauto|lbs|]. prt T. same l0.
  - rewrite T in LO. cbn in LO. apply (inv_move y0 x); auto; [apply (refuse _ _ _ _ _ _ I); tauto| |exact Logic.I|lbs|].
    + intros u. unfold upd. destruct (N.eqb_spec u tid) as [->|NE]; cbn; [split; discriminate|]. split; [discriminate|]. intros HU. exfalso. apply (lock_other _ _ _ tid u I); auto. now rewrite T.
    + prt T. samel l0.
  - rewrite T in LO. cbn in LO. destruct LO as (A & B & C & D). apply inv_go; auto; [now rewrite T|cbn; rewrite D; repeat split; auto|lbs|]. prt T. same l0.
  - destruct (ready_local _ _ _ _ _ RD LO) as (A & B & C & D & F & G & PT). rewrite D in *. apply (inv_move y0 x); auto.
    + rewrite ends_app. eapply ysteps_one; [exact H1|]. eapply Y_call; [intros _ _ _; eauto|]. unfold FseApi.FseCall. rewrite A, B. cbn [negb]. destruct (N.leb_spec NVOL n); [lia|]. rewrite fbody_exec in EX by auto. rewrite EX. reflexivity.
    + intros u NE HU. exfalso. apply (lock_other _ _ _ tid u I); auto.
    + intros u. cbn [c_lock set_y]. rewrite (H2 u). unfold upd. destruct (N.eqb_spec u tid) as [->|]; [rewrite G|]; cbn; tauto.
    + lbs.
    + intros l0 p W P. rewrite (PT _ P). same l0.
  - rewrite T in LO. cbn in LO. apply (inv_move y0 x); auto; [|exact Logic.I|lbs|].
    + intros u. unfold upd. destruct (N.eqb_spec u tid) as [->|NE]; cbn; [split; discriminate|]. split; [discriminate|]. intros HU. exfalso. apply (lock_other _ _ _ tid u I); auto. now rewrite T.
    + prt T. same l0.
  - apply inv_go; auto; [rewrite ends_app; cbn; now rewrite app_nil_r|now rewrite T|exact Logic.I|lbs|]. intros l0 p W P. rewrite T in P. cbn in P. destruct P as [->|[-> ->]]; eexists _, []; split; try (split; [reflexivity|rewrite app_nil_r, <- app_assoc; reflexivity]); [apply (W_call tid l0 n c r W)|apply (W_ref tid l0 n c W)].
  - destruct (ready_local _ _ _ _ _ RD LO) as (A & B & C & D & F & G & PT). rewrite D in *. apply (inv_crash y0 x); auto. rewrite ends_app. eapply ysteps_one; [exact H1|]. rewrite fbody_exec in EX by auto.
    eapply Y_crash; eauto. unfold FseApi.FseCall. rewrite A, B. cbn [negb]. destruct (N.leb_spec NVOL n); [lia|]. rewrite EX. reflexivity.
  - apply (inv_crash y0 x); auto. rewrite ends_app. eapply ysteps_one; [exact H1|]. apply Y_lost. exact LS.
  - apply (inv_rest y0 x); auto. rewrite ends_app. eapply ysteps_one; [exact H1|]. now apply Y_init.
  - apply (inv_rest y0 x); auto. rewrite ends_app. eapply ysteps_one; [exact H1|]. now apply Y_uninit.
  - rewrite app_nil_r. split; cbn; auto.
    + eapply ysteps_back; [exact H1|]. now apply Y_back.
    + intros u. specialize (H3 u). destruct (c_t x u); cbn in *; auto. unfold upd. destruct (N.eqb_spec n m) as [->|]; auto. destruct H3 as (A & A1 & A2 & A3 & -> & A4). repeat split; auto. inversion B; subst; reflexivity.
Qed.
Lemma inv_start y0 cur : Inv y0 (idle y0 cur) [].
Proof.
  split; cbn; auto; [constructor|split; discriminate|]. intros t. exists [], []. split; [constructor|]. auto.
Qed.
Lemma inv_steps y0 cur tr x : csteps (idle y0 cur) tr x -> Inv y0 x tr.
Proof. remember (idle y0 cur) as x0 eqn:E. induction 1 as [|x0 t x1 tid l x2 S IH S1]; subst; [apply inv_start|]. eapply inv_step; eauto. Qed.

(** * C47 *)
(** Whatever the schedule of the tasks, and wherever power is lost: the results of all calls and the state of all volumes
    are those of the calls made one at a time, in the order of [ends]; each call has its place in this order between call
    and return, with the result it returned. *)
Theorem C47_serial y cur tr x : csteps (idle y cur) tr x -> ysteps y (ends tr) (c_y x) /\ forall tid, exists l p, whole tid l /\ begun tid p /\ mine tid tr = l ++ p.
Proof.
  intros S. pose proof (inv_steps _ _ _ _ S) as [H1 H2 H3 H4]. split; auto. intros tid. destruct (H4 tid) as (l & p & W & P & M). exists l, p. split; auto. split; auto.
  destruct (c_t x tid); cbn in P; try (destruct P as [P|[-> P]]); subst p; constructor.
Qed.
Theorem C47_complete y cur tr x : csteps (idle y cur) tr x -> at_rest x -> forall tid, whole tid (mine tid tr).
Proof.
  intros S [_ R] tid. pose proof (inv_steps _ _ _ _ S) as [H1 H2 H3 H4]. destruct (H4 tid) as (l & p & W & P & M). rewrite R in P. cbn in P. subst p. now rewrite M, app_nil_r.
Qed.
(** So each volume is, under any schedule, what the specification of the API (FseSpec.v) says. *)
Theorem C47_volumes ds cur tr x n : (forall m, unformatted (ds m)) -> csteps (idle (mkFsys false (fun m => boot TD (ds m))) cur) tr x -> n < NVOL -> cfg_ok (gs n) ->
  exists a, fasteps (INODE_SIZE_MAX (gs n)) (ICNT (gs n)) TM TD (FU None TD) (ymine NVOL n false (ends tr)) a /\ fobserve (gs n) atom MM TM TD (fy_vol (c_y x) n) a.
Proof. intros U S LN OK. destruct (C47_serial _ _ _ _ S) as [H _]. eapply C44_volumes; eauto. Qed.
(** The mutex is held by one task at a time, by none that is outside of a call; and a body works on the volume it was
    called for, although the current volume is a global variable. *)
Theorem C47_mutex y cur tr x : csteps (idle y cur) tr x ->
  (forall t, c_t x t = TIdle -> c_lock x <> Some t) /\
  (forall t u, holding (c_t x t) = true -> holding (c_t x u) = true -> t = u) /\
  (forall t n c b, ready (c_t x t) n c b -> c_cur x = n) /\
  forall tid l x', cstep x tid l x' -> c_y x' <> c_y x -> c_lock x = Some tid \/ c_lock x' = None.
Proof.
  intros S. pose proof (inv_steps _ _ _ _ S) as [H1 H2 H3 H4]. split; [|split; [|split]].
  - intros t T X. apply H2 in X. rewrite T in X. discriminate.
  - intros t u A B. apply H2 in A, B. congruence.
  - intros t n c b R. apply (ready_local _ _ _ _ _ R (H3 t)).
  - intros tid l x' S1 NE. inversion S1; subst; cbn in *; try congruence; auto. left. apply H2. eapply ready_local; eauto.
Qed.
(** A task that holds the mutex needs no other task to give it back and to return.  (Premises of the body: [fallowed],
    [room], see FseReach.v.) *)
Lemma csteps_trans x t x1 t' x2 : csteps x t x1 -> csteps x1 t' x2 -> csteps x (t ++ t') x2.
Proof. intros A B. induction B as [|x1 t' x2 tid l x3 B IH S1]; [now rewrite app_nil_r|]. rewrite app_assoc. econstructor; eauto. Qed.
Definition fin (tid : N) (x : cst) : Prop :=
  exists tr x', csteps x tr x' /\ c_lock x' = None /\ c_t x' tid = TIdle /\ forall t, t <> tid -> c_t x' t = c_t x t.
Lemma fin_step tid x l x1 t : cstep x tid l x1 -> c_t x1 = upd (c_t x) tid t -> fin tid x1 -> fin tid x.
Proof.
  intros S1 E (tr & x' & A & B & C & D). exists (l ++ tr), x'. split; [|split; auto; split; auto].
  - eapply csteps_trans; eauto. change l with ([] ++ l). econstructor; eauto. constructor.
  - intros u Hu. rewrite D by auto. rewrite E. now rewrite upd_other.
Qed.
Ltac fs k := eapply fin_step; [k|cbn; reflexivity|].
Lemma fin_done tid x n c r : c_t x tid = TDone n c r -> c_lock x = None -> fin tid x.
Proof. intros A B. fs ltac:(eapply K_ret; eauto). eexists [], _. split; [constructor|]. cbn. rewrite upd_same. auto. Qed.
Lemma fin_leave tid x n c r : c_t x tid = TLeave n c r -> fin tid x.
Proof. intros A. fs ltac:(eapply K_leave; eauto). eapply fin_done; [cbn; rewrite upd_same; reflexivity|reflexivity]. Qed.
Definition can (y : fsys) : Prop := (forall n c, fallowed (fy_vol y n) c) /\ forall n, v_seq (fy_vol y n) + 3 <= UINT64_MAX.
Lemma fin_ready tid x n c b : ready (c_t x tid) n c b -> can (c_y x) -> fin tid x.
Proof.
  intros R [A B]. set (o := (0, fun _ => BJunk) : oracle). destruct (fbody atom MM TM (gs (c_cur x)) c b o o (fy_vol (c_y x) (c_cur x))) as [[r v] t] eqn:E.
  fs ltac:(eapply K_body with (o1 := o) (o2 := o); eauto; unfold room, o; cbn; specialize (B (c_cur x)); lia). eapply fin_leave. cbn. rewrite upd_same. reflexivity.
Qed.
Lemma fin_hold tid x n c : c_t x tid = THold n c -> can (c_y x) -> fin tid x.
Proof.
  intros A B. destruct (looks c) eqn:L.
  - fs ltac:(eapply K_look; eauto). eapply (fin_ready _ _ n c); [left; cbn; rewrite upd_same; split; auto|exact B].
  - eapply (fin_ready _ _ n c false); auto. right. auto.
Qed.
Theorem C47_released y cur tr x tid : csteps (idle y cur) tr x -> c_lock x = Some tid -> can (c_y x) -> fin tid x.
Proof.
  intros S LK CN. pose proof (inv_steps _ _ _ _ S) as [H1 H2 H3 H4]. pose proof (proj1 (H2 tid) LK) as H. specialize (H3 tid). destruct (c_t x tid) eqn:T; try discriminate H; cbn in H3.
  - destruct (N.lt_ge_cases n NVOL) as [L|L].
    + fs ltac:(eapply K_cur; eauto). eapply (fin_hold tid); [cbn; rewrite upd_same; reflexivity|exact CN].
    + fs ltac:(eapply K_novol; eauto). fs ltac:(eapply K_rel_fail; cbn; rewrite upd_same; reflexivity). eapply fin_done; [cbn; rewrite upd_same; reflexivity|reflexivity].
  - fs ltac:(eapply K_rel_fail; eauto). eapply fin_done; [cbn; rewrite upd_same; reflexivity|reflexivity].
  - eapply fin_hold; eauto.
  - eapply (fin_ready tid x n c b); auto. left. rewrite T. tauto.
  - eapply fin_leave; eauto.
Qed.
(** A serial history never has a mounted volume while the API is not initialised. *)
Theorem C47_shut ds t y n : ysteps (mkFsys false (fun m => boot TD (ds m))) t y -> n < NVOL -> fy_init y = false -> v_mnt (fy_vol y n) = false.
Proof.
  intros S LN. remember (mkFsys false (fun m => boot TD (ds m))) as y0 eqn:E0. assert (IV : fy_init y0 = false -> v_mnt (fy_vol y0 n) = false) by (subst; auto). clear E0.
  induction S as [|y0 e y1 t y2 S1 _ IH|y0 y1 t y2 S1 _ IH]; auto.
  - apply IH. exact (proj1 (ymine_step NVOL gs atom MM TM TD n _ _ _ [] LN IV S1)).
  - apply IH. exact (proj1 (ymine_step NVOL gs atom MM TM TD n _ _ _ [] LN IV S1)).
Qed.
End P.
