(** The effect of every POSIX call, and preservation of the invariant. *)
From Verif Require Import Base Count FsState FsDir FsSpec FsSpecN FsCoreP2 FsMach FsVolume FsVolumeP FsReach PropFs PropNs Posix PosixSpec PosixWp PosixPath PosixPath2 PosixInv PosixStart.
From Coq Require Import ZArith.
Ltac Zify.zify_post_hook ::= idtac.

(** Volume [n] performed the core call [c] with result [r]; nothing else changed. *)
Definition did (pc : pcfg) (s : pst) (n : N) (c : call) (r : res out) (s' : pst) : Prop :=
  rest s s' /\ exists v', vstep pc n (p_v s n) (Some (ECall c r)) v' /\ forall m, p_v s' m = if m =? n then v' else p_v s m.

Section Calls.
Variable pc : pcfg.
Hypothesis PC : pcfg_ok pc.
Set Default Proof Using "PC".
Notation SEP := (SEP pc).
Notation NV := (NV pc).
Notation HC := (HC pc).
Notation TC := (TC pc).
Notation prefix := (prefix pc).
Notation MM := (MMASK pc).
Notation TM := (TMASK pc).
Notation TD := (TDEF pc).
Notation comps := (comps SEP).
Notation VOK := (VOK pc).
Notation VInv := (VInv pc).
Notation PInv := (PInv pc).
Notation wp := (wp pc).
Notation vask := (vask pc).
Notation vdir := (vdir pc).
Notation vfile := (vfile pc).
Notation vstep := (vstep pc).
Notation did := (did pc).
Notation vlook := (vlook pc).
Notation vlook_name := (vlook_name pc).
Notation starts := (starts pc).

Record Ctx (tid : N) (s : pst) : Prop := { x_inv : PInv s; x_init : p_init s = true; x_reg : registered pc tid s }.
Lemma x_v tid s : Ctx tid s -> VInv s. Proof using. intros H. apply H. Qed.
Lemma x_cur tid s : Ctx tid s -> p_cur s < NV. Proof using. intros H. apply H. Qed.
Lemma still_Ctx tid s s' : Ctx tid s -> still s s' -> p_cur s' < NV -> Ctx tid s'.
Proof using.
  intros [A B C] ST HC'. split; [eapply still_inv; eauto| |]; destruct ST as ((I1 & I2 & I3 & I4) & _); [congruence|]. unfold registered in *. rewrite I3. auto.
Qed.
Lemma same_Ctx tid s s' : Ctx tid s -> same s s' -> Ctx tid s'.
Proof using. intros H SM. apply (still_Ctx tid s); [auto|now apply same_still|]. destruct SM as (_ & -> & _). apply H. Qed.

(** A core call that cannot remove an inode in use. *)
Definition harmless (s : pst) (c : call) : Prop :=
  c <> CRollback /\ c <> CUnmount /\ (forall f, c <> CMount f) /\
  (forall p nm i, victim c = Some (p, nm) -> v_mnt (p_v s (p_cur s)) = true -> vask (p_cur s) (p_v s (p_cur s)) (CLookup p nm) = Ok (ONum i) -> refd pc s (p_cur s) i ->
     exists nl sz bl, vask (p_cur s) (p_v s (p_cur s)) (CStat i) = Ok (OStat (false, nl, sz, bl)) /\ nl <> 1).
Lemma wp_do tid c (Q : res out -> pst -> Prop) s : Ctx tid s -> legal c -> cclean pc c -> harmless s c ->
  (forall r s', Ctx tid s' -> did s (p_cur s) c r s' -> p_cur s' = p_cur s -> Q r s') -> wp (core pc c) Q s.
Proof.
  intros CX LG CC (N1 & N2 & N3 & HV) H. pose proof (x_v _ _ CX) as VI. pose proof (x_cur _ _ CX) as HN. apply (wp_core pc PC); auto.
  intros r v' s' ST VI' RS CU EV. apply H; auto.
  - assert (PI : PInv s').
    { eapply (inv_core pc s (p_cur s) v' s'); eauto; try apply CX; [now rewrite CU| |].
      - rewrite (step_mnt_eq pc PC _ _ _ _ _ HN (VI _ HN) ST N3 N2). auto.
      - intros MN i RF. eapply (step_kept pc PC); eauto. }
    split; auto; destruct RS as (I1 & I2 & I3 & I4); [rewrite I1; apply CX|]. pose proof (x_reg _ _ CX) as RG. unfold registered in *. rewrite I3. auto.
  - split; auto. exists v'. split; auto. intros m. now rewrite EV.
Qed.
Lemma harmless_easy s c : victim c = None -> c <> CRollback -> c <> CUnmount -> (forall f, c <> CMount f) -> harmless s c.
Proof using. intros V A B C. repeat split; auto. intros p nm i X. congruence. Qed.
Lemma wp_do_unit tid c (Q : res unit -> pst -> Prop) s : Ctx tid s -> legal c -> cclean pc c -> harmless s c ->
  (forall r s', Ctx tid s' -> did s (p_cur s) c r s' -> p_cur s' = p_cur s -> Q (match r with Ok _ => Ok tt | Err e => Err e end) s') -> wp (core_unit pc c) Q s.
Proof.
  intros CX LG CC HL H. unfold core_unit. apply wp_bind. eapply wp_do; eauto. intros r s' CX' DD CU. specialize (H r s' CX' DD CU). destruct r; auto.
Qed.
Lemma wp_do_num tid c (Q : res N -> pst -> Prop) s : Ctx tid s -> legal c -> cclean pc c -> harmless s c ->
  (forall r s', Ctx tid s' -> did s (p_cur s) c r s' -> p_cur s' = p_cur s -> Q (match r with Ok (ONum n) => Ok n | Ok _ => Err EFUBAR | Err e => Err e end) s') -> wp (core_num pc c) Q s.
Proof.
  intros CX LG CC HL H. unfold core_num. apply wp_bind. eapply wp_do; eauto. intros r s' CX' DD CU. specialize (H r s' CX' DD CU). destruct r as [[]|]; auto.
Qed.
(** A call that never changes anything. *)
Lemma wp_quiet tid c x (Q : res out -> pst -> Prop) s : Ctx tid s -> legal c -> cclean pc c ->
  (forall o1 o2, exists t, exec (gs pc (p_cur s)) (ATOM pc (p_cur s)) MM TM c o1 o2 (p_v s (p_cur s)) = (x, p_v s (p_cur s), t)) ->
  (forall s', Ctx tid s' -> same s s' -> Q x s') -> wp (core pc c) Q s.
Proof using.
  intros CX LG CC EX H. split; [auto|]. intros HO. unfold core_act in *. destruct (p_o s 0%nat) as [o1 o2]. destruct (EX o1 o2) as (t & E). rewrite E in *. cbn in *.
  match goal with |- VInv ?y /\ _ => assert (SM : same s y) end.
  { split; [repeat split|]. split; auto. intros n. cbn. unfold upd. destruct (N.eqb_spec n (p_cur s)) as [->|X]; auto. }
  pose proof (same_Ctx _ _ _ CX SM) as CX'. split; [apply CX'|]. apply H; auto.
Qed.
Lemma maskget_exec n v o1 o2 : exists t, exec (gs pc n) (ATOM pc n) MM TM CMaskGet o1 o2 v = (if v_mnt v then Ok (ONum (v_mask v)) else Err EINVAL, v, t).
Proof using. exists []. cbn. unfold omap, pbind, RedCoreTransMaskGet. destruct (v_mnt v); reflexivity. Qed.
Lemma wp_maskget tid (Q : res N -> pst -> Prop) s : Ctx tid s ->
  (forall s', Ctx tid s' -> same s s' -> Q (if v_mnt (p_v s (p_cur s)) then Ok (v_mask (p_v s (p_cur s))) else Err EINVAL) s') -> wp (core_num pc CMaskGet) Q s.
Proof using.
  intros CX H. unfold core_num. apply wp_bind. eapply wp_quiet; eauto; [exact I|exact I|intros; apply maskget_exec|]. intros s' CX' SM. specialize (H s' CX' SM).
  destruct (v_mnt _); auto.
Qed.
Lemma wp_start tid path (Q : res (N * N * str) -> pst -> Prop) s : Ctx tid s ->
  (forall r s', Ctx tid s' -> still s s' -> start_ok pc s tid path r s' -> Q r s') -> wp (PathStartingPoint pc tid path) Q s.
Proof.
  intros CX H. apply (wp_Start pc PC); try apply CX. intros r s' V ST CU SO. apply H; auto. eapply still_Ctx; eauto.
Qed.
Lemma wp_lookup tid i p (Q : res N -> pst -> Prop) s : Ctx tid s ->
  (v_mnt (p_v s (p_cur s)) = true -> vdir (p_cur s) (p_v s (p_cur s)) i) -> i <> 0 ->
  (forall s', Ctx tid s' -> same s s' ->
     (forall j, vlook (p_cur s) (p_v s (p_cur s)) i (comps p) = Ok j -> v_mnt (p_v s (p_cur s)) = true /\ (vfile (p_cur s) (p_v s (p_cur s)) j \/ vdir (p_cur s) (p_v s (p_cur s)) j)) ->
     Q (vlook (p_cur s) (p_v s (p_cur s)) i (comps p)) s') ->
  wp (RedPathLookup pc i p) Q s.
Proof. intros CX HD NZ H. apply (wp_Lookup pc PC); auto; try apply CX. intros s' V SM. apply H; auto. eapply same_Ctx; eauto. Qed.
Lemma wp_toname tid i p e (Q : res (N * name) -> pst -> Prop) s : Ctx tid s ->
  (v_mnt (p_v s (p_cur s)) = true -> vdir (p_cur s) (p_v s (p_cur s)) i) -> i <> 0 -> (i = ROOT \/ comps p <> []) ->
  (forall s', Ctx tid s' -> same s s' ->
     (forall d nm, vlook_name (p_cur s) e (p_v s (p_cur s)) i (comps p) = Ok (d, nm) -> v_mnt (p_v s (p_cur s)) = true /\ nozero nm /\ pname pc nm /\ nm <> dot1 /\ nm <> dot2) ->
     Q (vlook_name (p_cur s) e (p_v s (p_cur s)) i (comps p)) s') ->
  wp (RedPathToName pc i p e) Q s.
Proof. intros CX HD NZ HI H. apply (wp_ToName pc PC); auto; try apply CX. intros s' V SM. apply H; auto. eapply same_Ctx; eauto. Qed.
Lemma wp_stat tid i (Q : res (bool * N * N * N) -> pst -> Prop) s : Ctx tid s ->
  (forall s', Ctx tid s' -> same s s' -> Q (vstat4 pc (p_cur s) (p_v s (p_cur s)) i) s') -> wp (core_stat pc i) Q s.
Proof. intros CX H. apply (wp_core_stat pc PC); try apply CX. intros s' V SM. apply H; auto. eapply same_Ctx; eauto. Qed.
Lemma wp_ask tid c (Q : res N -> pst -> Prop) s : Ctx tid s -> legal c -> reads c = true ->
  (forall s', Ctx tid s' -> same s s' -> Q (match vask (p_cur s) (p_v s (p_cur s)) c with Ok (ONum n) => Ok n | Ok _ => Err EFUBAR | Err e => Err e end) s') -> wp (core_num pc c) Q s.
Proof. intros CX LG RD H. apply (wp_core_num pc PC); auto; try apply CX. intros s' V SM. apply H; auto. eapply same_Ctx; eauto. Qed.
Lemma wp_Act tid {A} (f : pst -> res A * pst) (Q : res A -> pst -> Prop) s : Ctx tid s -> p_v (snd (f s)) = p_v s -> Q (fst (f s)) (snd (f s)) -> wp (act f) Q s.
Proof using. intros CX E H. apply wp_act; auto. apply CX. Qed.
Lemma wp_Get tid {A} (f : pst -> A) (Q : res A -> pst -> Prop) s : Ctx tid s -> Q (Ok (f s)) s -> wp (get f) Q s.
Proof using. intros CX H. apply wp_get; auto. apply CX. Qed.
Lemma wp_SetCur tid n (Q : res unit -> pst -> Prop) s : Ctx tid s -> n < NV -> (forall s', Ctx tid s' -> still s s' -> p_cur s' = n -> Q (Ok tt) s') -> wp (RedCoreVolSetCurrent pc n) Q s.
Proof using.
  intros CX Hn H. apply (wp_setcur pc); auto; [apply CX|]. apply H; auto; [|apply set_cur_still]. apply (still_Ctx tid s); auto. apply set_cur_still.
Qed.

(** ** Composition of effects *)
Lemma did_still s s1 n c r s' : still s s1 -> did s1 n c r s' -> did s n c r s'.
Proof using.
  intros ((A & B & C & D) & V) ((A' & B' & C' & D') & v' & ST & E). split; [repeat split; congruence|]. exists v'. rewrite V in ST. split; auto. intros m. rewrite E, V. auto.
Qed.
Lemma still_did s n c r s1 s' : did s n c r s1 -> still s1 s' -> did s n c r s'.
Proof using.
  intros ((A' & B' & C' & D') & v' & ST & E) ((A & B & C & D) & V). split; [repeat split; congruence|]. exists v'. split; auto. intros m. rewrite V, E. auto.
Qed.
Lemma did_rest s n c r s' : did s n c r s' -> rest s s'. Proof using. intros (A & _). auto. Qed.
Lemma still_rest s s' : still s s' -> rest s s'. Proof using. intros (A & _). auto. Qed.
Lemma rest_trans s s1 s2 : rest s s1 -> rest s1 s2 -> rest s s2.
Proof using. intros (A & B & C & D) (A' & B' & C' & D'). repeat split; congruence. Qed.
End Calls.
