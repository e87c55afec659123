(** C38: API calls from concurrent tasks are serialised. *)
From Verif Require Import Base Count FsState FsDir FsSpec FsMach FsVolume FsReach Posix PosixWp PosixPath2 PosixInv PosixReach PosixKeep PosixConc PosixConcP.
From Coq Require Import ZArith.
Ltac Zify.zify_post_hook ::= idtac.

(** No calls under way. *)
Definition idle (s : pst) (e : est) : cst := mkC s e None (fun _ => TIdle).

Section C38.
Variable pc : pcfg.
Variable PC : pcfg_ok pc.
Lemma idle_inv s e : preach pc (s, e) -> p_init s = true -> Inv pc (s, e) (idle s e) [] s e.
Proof.
  intros R IN. pose proof (i_d _ _ (preach_inv pc PC _ R) IN) as U. split; cbn; auto.
  - intros t. split; discriminate.
  - intros t. exists []. split; [constructor|reflexivity].
  - constructor.
Qed.
Lemma csteps_inv s e x : preach pc (s, e) -> p_init s = true -> forall tr, csteps pc (idle s e) tr x -> exists S E, Inv pc (s, e) x tr S E.
Proof.
  intros R IN tr ST. remember (idle s e) as x0 eqn:E0. induction ST as [|x0 t x1 tid l x2 ST IH NZ S1]; subst.
  - exists s, e. apply idle_inv; auto.
  - destruct (IH eq_refl) as (S & E & I). eapply cstep_inv; eauto.
Qed.

(** Whatever the schedule, once all calls have returned: there is an order of the calls such that the globals, the
    errno of every task slot and the results are those of running the calls one at a time in this order.  In the
    order of the trace, the point [LEnd] of each call lies between call and return, and the calls that entered the
    file system are ordered as they acquired the mutex. *)
Theorem C38_serial s e tr x : preach pc (s, e) -> p_init s = true -> csteps pc (idle s e) tr x -> at_rest x ->
  exists e', serial pc (s, e) (ends tr) (c_s x, e') /\ (forall k, k < TC pc -> e_task e' k = e_task (c_e x) k) /\
    acqs tr = called (ends tr) /\ forall tid, whole tid (mine tid tr).
Proof.
  intros R IN ST [LK ID]. destruct (csteps_inv _ _ _ R IN _ ST) as (S & E & [H1 H2 H3 H0 H4 H5 H6 H7 H8 H9 H10]). rewrite LK in H5, H9. subst S. exists E. split; auto. split; [|split].
  - intros k Hk. rewrite (H7 k Hk), ID. reflexivity.
  - now rewrite app_nil_r in H9.
  - intros t. destruct (H8 t) as (l0 & W & M). rewrite ID in M. cbn in M. rewrite app_nil_r in M. now rewrite M.
Qed.
(** Also while calls are under way: the results of the calls that have returned are those of the serial run. *)
Theorem C38_prefix s e tr x : preach pc (s, e) -> p_init s = true -> csteps pc (idle s e) tr x ->
  (exists x', serial pc (s, e) (ends tr) x' /\ (c_lock x = None -> fst x' = c_s x)) /\
  forall tid c r, In (LRet tid c r) tr -> In (tid, c, r) (ends tr).
Proof.
  intros R IN ST. destruct (csteps_inv _ _ _ R IN _ ST) as (S & E & [H1 H2 H3 H0 H4 H5 H6 H7 H8 H9 H10]). split.
  - exists (S, E). split; auto. intros LK. rewrite LK in H5. auto.
  - intros tid c r H. destruct (H8 tid) as (l0 & W & M). assert (X : In (LRet tid c r) (mine tid tr)). { apply filter_In. split; auto. cbn. apply N.eqb_refl. }
    assert (Y : In (LEnd tid c r) (mine tid tr)).
    { rewrite M in *. apply in_app_iff in X as [X|X].
      - apply in_app_iff. left. clear -W X. induction W as [|l c0 r0 W IH EA|l c0 e0 W IH EP]; [destruct X| |]; apply in_app_iff in X as [X|X]; apply in_app_iff; auto; right; cbn in *; repeat destruct X as [X|X]; try discriminate; try contradiction; injection X as <- <-; auto.
      - exfalso. destruct (c_t x tid) as [|c0|c0|c0|c0|c0 e0|c0 m|c0 [o|e0]|c0 e0|c0 e0|c0 e0 [k|]|c0 e0|c0 e0|c0 e0 k|c0 e0 k|c0 r0]; cbn in X; try destruct (early c0); cbn in X; repeat destruct X as [X|X]; try discriminate; try contradiction. }
    apply filter_In in Y as [Y _]. clear -Y. induction tr as [|y tr IH]; [destruct Y|]. destruct Y as [->|Y]; [left; reflexivity|]. specialize (IH Y). destruct y; auto. right. auto.
Qed.

(** The mutex is held by one task at a time, and only the holder changes the globals. *)
Theorem C38_mutex s e tr x : preach pc (s, e) -> p_init s = true -> csteps pc (idle s e) tr x ->
  (forall t u, holding (c_t x t) = true -> holding (c_t x u) = true -> t = u) /\
  forall tid l x', tid <> 0 -> cstep pc x tid l x' -> c_s x' <> c_s x -> c_lock x = Some tid.
Proof.
  intros R IN ST. destruct (csteps_inv _ _ _ R IN _ ST) as (S & E & [H1 H2 H3 H0 H4 H5 H6 H7 H8 H9 H10]). split.
  - intros t u A B. apply H4 in A, B. congruence.
  - intros tid l x' NZ S1 NE. apply H4. destruct S1; cbn in NE; try congruence; match goal with H : c_t x tid = _ |- _ => rewrite H; reflexivity end.
Qed.

(** * The mutex is released *)
Lemma csteps_trans x t x1 t' x2 : csteps pc x t x1 -> csteps pc x1 t' x2 -> csteps pc x (t ++ t') x2.
Proof. intros A B. induction B as [|x1 t' x2 tid l x3 B IH NZ S1]; [now rewrite app_nil_r|]. rewrite app_assoc. econstructor; eauto. Qed.
(** Without any step of another task, [tid] can finish its call, and then the mutex is free. *)
Definition fin (tid : N) (x : cst) : Prop :=
  exists tr x', csteps pc x tr x' /\ c_t x' tid = TIdle /\ c_lock x' = None /\ forall t, t <> tid -> c_t x' t = c_t x t.
Lemma fin_step tid x l x1 t : tid <> 0 -> cstep pc x tid l x1 -> c_t x1 = upd (c_t x) tid t -> fin tid x1 -> fin tid x.
Proof.
  intros NZ S1 E (tr & x' & A & B & C & D). exists (l ++ tr), x'. split; [|split; auto; split; auto].
  - eapply csteps_trans; eauto. change l with ([] ++ l). econstructor; eauto. constructor.
  - intros u Hu. rewrite D by auto. rewrite E. now rewrite upd_other.
Qed.
Ltac fs k := eapply fin_step; [assumption|k|cbn; reflexivity|].
Ltac tt := cbn; rewrite ?upd_same; auto.
Lemma fin_idle tid x : c_t x tid = TIdle -> c_lock x = None -> fin tid x.
Proof. intros A B. exists [], x. split; [constructor|]. auto. Qed.
Section Tid.
Variable tid : N.
Hypothesis NZ : tid <> 0.
Lemma fin_done x c r : c_t x tid = TDone c r -> c_lock x = None -> fin tid x.
Proof. intros A B. fs ltac:(eapply K_ret; eauto). apply fin_idle; tt. Qed.
Lemma fin_store x c e k : c_t x tid = TStore c e k -> c_lock x = None -> fin tid x.
Proof. intros A B. fs ltac:(eapply K_store; eauto). eapply fin_done; tt. Qed.
Lemma fin_joinr x c e k : c_t x tid = TJoinR c e k -> fin tid x.
Proof. intros A. fs ltac:(eapply K_unlock; eauto). eapply fin_store; tt. Qed.
Lemma fin_joinh x c e : c_t x tid = TJoinH c e -> fin tid x.
Proof. intros A. destruct (TaskRegister pc tid (c_s x)) as [r s'] eqn:R. fs ltac:(eapply K_joined; eauto). eapply fin_joinr; tt. Qed.
Lemma fin_join x c e : c_t x tid = TJoin c e -> c_lock x = None -> fin tid x.
Proof. intros A B. fs ltac:(eapply K_join; eauto). eapply fin_joinh; tt. Qed.
Lemma fin_lookr x c e k : c_t x tid = TLookR c e k -> fin tid x.
Proof. intros A. destruct k; [fs ltac:(eapply K_found; eauto); eapply fin_store; tt|fs ltac:(eapply K_new; eauto); eapply fin_join; tt]. Qed.
Lemma fin_lookh x c e : c_t x tid = TLookH c e -> fin tid x.
Proof. intros A. fs ltac:(eapply K_scan; eauto). eapply fin_lookr; tt. Qed.
Lemma fin_look x c e : c_t x tid = TLook c e -> c_lock x = None -> fin tid x.
Proof. intros A B. fs ltac:(eapply K_look; eauto). eapply fin_lookh; tt. Qed.
Lemma fin_ret x c r : c_t x tid = TRet c r -> c_lock x = None -> fin tid x.
Proof.
  intros A B. destruct r as [o|e]; [fs ltac:(eapply K_ok; eauto); eapply fin_done; tt|].
  destruct (p_init (c_s x)) eqn:IN; [fs ltac:(eapply K_err; eauto); eapply fin_look; tt|fs ltac:(eapply K_err_uninit; eauto); eapply fin_store; tt].
Qed.
Lemma fin_hold c m : forall x, c_t x tid = THold c m -> fin tid x.
Proof.
  induction m as [r|X lb f k IH]; intros x A; [fs ltac:(eapply K_leave; eauto); eapply fin_ret; tt|fs ltac:(eapply K_act; eauto); eapply IH; tt].
Qed.
Lemma fin_after x c e : c_t x tid = after_err c e -> c_lock x = None -> fin tid x.
Proof. unfold after_err. intros A B. destruct (refusal c e); [eapply fin_done; eauto|eapply fin_ret; eauto]. Qed.
Lemma fin_fail x c e : c_t x tid = TFail c e -> fin tid x.
Proof. intros A. fs ltac:(eapply K_rel_full; eauto). eapply fin_after; tt. Qed.
Lemma fin_reg x c : c_t x tid = TReg c -> fin tid x.
Proof. intros A. destruct (TaskRegister pc tid (c_s x)) as [[k|e] s'] eqn:R; [fs ltac:(eapply K_reg; eauto); eapply fin_hold; tt|fs ltac:(eapply K_full; eauto); eapply fin_fail; tt]. Qed.
Lemma fin_wait x c : c_t x tid = TWait c -> c_lock x = None -> fin tid x.
Proof. intros A B. fs ltac:(eapply K_acq; eauto). eapply fin_reg; tt. Qed.
Lemma fin_enter x c : c_t x tid = TEnter c -> c_lock x = None -> fin tid x.
Proof. intros A B. destruct (p_init (c_s x)) eqn:IN; [fs ltac:(eapply K_check; eauto); eapply fin_wait; tt|fs ltac:(eapply K_uninit; eauto); eapply fin_after; tt]. Qed.
Lemma fin_call x c : c_t x tid = TCall c -> c_lock x = None -> fin tid x.
Proof. intros A B. fs ltac:(eapply K_pre; eauto). destruct (precheck c); [eapply fin_ret; tt|eapply fin_enter; tt]. Qed.
Lemma fin_any x : (holding (c_t x tid) = true \/ c_lock x = None) -> fin tid x.
Proof.
  intros H. destruct (c_t x tid) eqn:A; try (destruct H as [H|H]; [discriminate H|]).
  - apply fin_idle; auto. - eapply fin_call; eauto. - eapply fin_enter; eauto. - eapply fin_wait; eauto. - eapply fin_reg; eauto. - eapply fin_fail; eauto. - eapply fin_hold; eauto. - eapply fin_ret; eauto. - eapply fin_look; eauto.
  - eapply fin_lookh; eauto. - eapply fin_lookr; eauto. - eapply fin_join; eauto. - eapply fin_joinh; eauto. - eapply fin_joinr; eauto. - eapply fin_store; eauto. - eapply fin_done; eauto.
Qed.
End Tid.
Lemma few s e tr x : csteps pc (idle s e) tr x -> exists L, forall t, t <> 0 /\ In t L \/ c_t x t = TIdle.
Proof.
  intros ST. remember (idle s e) as x0 eqn:E0. induction ST as [x0|x0 t x1 tid l x2 ST IH NZ S1]; subst; [exists []; auto|]. destruct (IH eq_refl) as (L & H). exists (tid :: L). intros u.
  destruct (N.eq_dec u tid) as [->|Hu]; [left; split; auto; left; auto|]. assert (X : c_t x2 u = c_t x1 u) by (destruct S1; cbn; now rewrite upd_other). rewrite X. destruct (H u) as [[A B]|A]; auto. left. split; auto. right. auto.
Qed.
Lemma drain L : forall x, c_lock x = None -> (forall t, t <> 0 /\ In t L \/ c_t x t = TIdle) -> exists tr x', csteps pc x tr x' /\ at_rest x'.
Proof.
  induction L as [|u L IH]; intros x LK H.
  - exists [], x. split; [constructor|]. split; auto. intros t. destruct (H t) as [[_ []]|]; auto.
  - destruct (N.eq_dec u 0) as [->|NZ].
    + apply IH; auto. intros t. destruct (H t) as [[A [B|B]]|A]; auto. congruence.
    + destruct (fin_any u NZ x (or_intror LK)) as (tr & x' & A & B & C & D). destruct (IH x' C) as (tr2 & x2 & A2 & B2).
      * intros t. destruct (N.eq_dec t u) as [->|Ht]; auto. rewrite D by auto. destruct (H t) as [[Q [R|R]]|Q]; auto. congruence.
      * exists (tr ++ tr2), x2. split; auto. eapply csteps_trans; eauto.
Qed.
(** A task outside of a call, or about to return, does not hold the mutex; a task that holds it can always go on,
    without any other task making a step, until it has returned and the mutex is free; and from every point of
    every schedule all calls can be completed. *)
Theorem C38_released s e tr x : preach pc (s, e) -> p_init s = true -> csteps pc (idle s e) tr x ->
  (forall tid, c_t x tid = TIdle \/ (exists c r, c_t x tid = TDone c r) -> c_lock x <> Some tid) /\
  (forall tid, c_lock x = Some tid -> fin tid x) /\
  exists tr' x', csteps pc x tr' x' /\ at_rest x'.
Proof.
  intros R IN ST. destruct (csteps_inv _ _ _ R IN _ ST) as (S & E & I). pose proof (n_lock _ _ _ _ _ _ I) as HL. split; [|split].
  - intros tid H X. apply HL in X. destruct H as [H|(c & r & H)]; rewrite H in X; discriminate.
  - intros tid H. apply fin_any; [|left; now apply HL]. intros ->. apply HL in H. rewrite (n_zero _ _ _ _ _ _ I) in H. discriminate.
  - destruct (few _ _ _ _ ST) as (L & HL2). destruct (c_lock x) as [u|] eqn:LK; [|eapply drain; eauto].
    assert (HU : holding (c_t x u) = true) by (now apply HL).
    assert (NZ : u <> 0). { intros ->. rewrite (n_zero _ _ _ _ _ _ I) in HU. discriminate. }
    destruct (fin_any u NZ x (or_introl HU)) as (tr1 & x1 & A & B & C & D). destruct (drain L x1 C) as (tr2 & x2 & A2 & B2).
    + intros t. destruct (N.eq_dec t u) as [->|Ht]; auto. rewrite D by auto. apply HL2.
    + exists (tr1 ++ tr2), x2. split; auto. eapply csteps_trans; eauto.
Qed.
End C38.

