(** The properties of the POSIX-like API (C25 - C30, C35). *)
From Verif Require Import Base Count FsState FsDir FsSpec FsSpecN FsCoreP2 FsMach FsVolume FsVolumeP FsReach PropFs PropNs Posix PosixSpec PosixWp PosixPath PosixPath2 PosixInv PosixStart PosixCalls PosixCalls2 PosixCalls3 PosixCalls4 PosixCalls5 PosixCalls6 PosixCalls7 PosixReach PosixSame.
From Coq Require Import ZArith.
Ltac Zify.zify_post_hook ::= idtac.

(** The file system is initialised and task [tid] has made a call before. *)
Definition ready (pc : pcfg) (tid : N) (x : pst * est) : Prop := p_init (fst x) = true /\ registered pc tid (fst x).
(** Handles, generations and volumes are as before. *)
Definition quiet (s s' : pst) : Prop := (forall k, p_h s' k = p_h s k) /\ (forall n, p_gen s' n = p_gen s n) /\ forall n, p_v s' n = p_v s n.
(** Only handle [k] changed. *)
Definition only_handle (s : pst) (k : N) (h : handle) (s' : pst) : Prop :=
  (forall j, p_h s' j = if j =? k then h else p_h s j) /\ (forall n, p_gen s' n = p_gen s n) /\ forall n, p_v s' n = p_v s n.
(** Only volume [n] changed, by the core call [c] with result [r]. *)
Definition only_volume (pc : pcfg) (s : pst) (n : N) (c : call) (r : res out) (s' : pst) : Prop :=
  (forall k, p_h s' k = p_h s k) /\ (forall m, p_gen s' m = p_gen s m) /\ (forall m, m <> n -> p_v s' m = p_v s m) /\ vstep pc n (p_v s n) (Some (ECall c r)) (p_v s' n).
Definition no_restart (t : list pev) : Prop := ~ In EvRestart t.

Section PropPosix.
Variable pc : pcfg.
Hypothesis PC : pcfg_ok pc.
Set Default Proof Using "PC".
Notation SEP := (SEP pc).
Notation NV := (NV pc).
Notation HC := (HC pc).
Notation TC := (TC pc).
Notation prefix := (prefix pc).
Notation comps := (comps SEP).
Notation PInv := (PInv pc).
Notation Ctx := (Ctx pc).
Notation preach := (preach pc).
Notation pstep := (pstep pc).
Notation psteps := (psteps pc).
Notation ready := (ready pc).
Notation live := (live pc).
Notation starts := (starts pc).
Notation vask := (vask pc).
Notation vdir := (vdir pc).
Notation vfile := (vfile pc).
Notation vlook := (vlook pc).
Notation vlook_name := (vlook_name pc).
Notation SZMAX n := (INODE_SIZE_MAX (gs pc n)).

Lemma ready_Ctx tid x : preach x -> ready tid x -> Ctx tid (fst x).
Proof. intros R (A & B). split; auto. now apply preach_inv. Qed.
Lemma joins_ready tid s s1 : registered pc tid s -> joins pc tid s s1 -> s1 = s.
Proof using. intros (_ & k & Hk & E) [(-> & _)|(N & _)]; auto. now destruct (N k Hk). Qed.
(** The effect of a call of a registered task. *)
Lemma call_ready tid c r x x' : preach x -> ready tid x -> pstep x (EvCall tid c r) x' -> precheck c = None -> effect pc tid c (fst x) r (fst x') /\ Ctx tid (fst x').
Proof.
  intros R (IN & RG) ST PK. inversion ST; subst. destruct (api_effect pc PC tid c r x x') as [(s1 & A & B & D & E & F)|(e & [(_ & X)|(_ & _ & X)] & _)]; auto.
  - rewrite (joins_ready _ _ _ RG B) in *. auto.
  - congruence.
  - destruct RG as (_ & k & Hk & E). destruct (X k Hk). tauto.
Qed.
Lemma still_quiet s s' : still s s' -> quiet s s'.
Proof using. intros ((A & B & D & E) & F). split; [|split]; auto; intros; congruence. Qed.
Lemma hset_only s k h s' : hset s k h s' -> only_handle s k h s'.
Proof using. intros (A & B & D & E & F). split; [|split]; auto; intros; congruence. Qed.
Lemma did_only s n c r s' : did pc s n c r s' -> only_volume pc s n c r s'.
Proof using.
  intros ((A & B & D & E) & v' & V & W). split; [intros; congruence|]. split; [intros; congruence|]. split.
  - intros m Hm. rewrite W. destruct (N.eqb_spec m n); congruence.
  - rewrite W, N.eqb_refl. auto.
Qed.

(** * C25: paths *)
(** The starting point of a path is unique; hence so are the file and the entry it leads to. *)
Theorem C25_start tid path x : preach x -> ready tid x -> exists st, starts tid path (fst x) st /\ forall st', starts tid path (fst x) st' -> st' = st.
Proof.
  intros R RD. pose proof (ready_Ctx _ _ R RD) as CX. destruct (starts_ex pc PC tid path _ CX) as (st & S). exists st. split; auto. intros st' S'.
  assert (PN : forall n, picks NV SEP prefix path n -> picks_none NV SEP prefix path -> False).
  { intros n (A & [(B & D & _)|(B & _)]) PNO; destruct (PNO n A); tauto. }
  destruct S as [n t PK E NE|n i NP RL CW|PNO NR], S' as [n' t' PK' E' NE'|n' i' NP' RL' CW'|PNO' NR']; auto; try (exfalso; eapply PN; eauto; fail); try tauto.
  - rewrite (picks_fun pc PC _ _ _ PK' PK) in *. rewrite E in E'. apply app_inv_head in E'. now subst.
  - exfalso. specialize (NP' _ PK). tauto.
  - exfalso. specialize (NP _ PK'). tauto.
  - destruct (cwd_fun pc tid (fst x) n i n' i') as [-> ->]; auto; [apply CX|apply CX|]. destruct RD as (_ & NZ & _). auto.
Qed.
Lemma starts_fun tid path x st st' : preach x -> ready tid x -> starts tid path (fst x) st -> starts tid path (fst x) st' -> st' = st.
Proof. intros R RD A B. destruct (C25_start tid path x R RD) as (s & _ & U). rewrite (U _ A), (U _ B). auto. Qed.
Lemma at_name_fun tid path e x a b : preach x -> ready tid x -> at_name pc tid path e (fst x) a -> at_name pc tid path e (fst x) b -> a = b.
Proof. intros R RD (s1 & A & A1) (s2 & B & B1). rewrite (starts_fun _ _ _ _ _ R RD A B) in *. destruct s1 as [[[n i] l]|]; congruence. Qed.
Lemma at_file_fun tid path x a b : preach x -> ready tid x -> at_file pc tid path (fst x) a -> at_file pc tid path (fst x) b -> a = b.
Proof. intros R RD (s1 & A & A1) (s2 & B & B1). rewrite (starts_fun _ _ _ _ _ R RD A B) in *. destruct s1 as [[[n i] l]|]; congruence. Qed.

(** ** What a successful open does *)
Lemma open_done tid path m ty s k fd s' : open_post pc tid path m ty s (Ok (k, fd)) s' ->
  exists n i l j (dir : bool), starts tid path s (Ok (n, i, l)) /\ lowest_free pc s k /\ j <> 0 /\ fd = fd_of (p_gen s n) n k /\
    (forall q, p_h s' q = if q =? k then new_handle n j dir m else p_h s q) /\ p_gen s' = p_gen s /\ p_t s' = p_t s /\ (forall q, q <> n -> p_v s' q = p_v s q) /\
    (has m O_CREAT = false -> vlook n (p_v s n) i l = Ok j) /\
    (has m O_CREAT = true -> exists d nm, vlook_name n EISDIR (p_v s n) i l = Ok (d, nm)).
Proof using.
  intros (st & S & H). destruct st as [[[n i] l]|e]; [|destruct H; discriminate]. destruct (s_ro _ && _); [destruct H; discriminate|].
  destruct H as [(_ & X & _)|(k' & LF & H)]; [discriminate|].
  assert (FIN : forall s0 j (dir : bool), rest s s0 -> (forall q, q <> n -> p_v s0 q = p_v s q) -> opened s0 n j k' dir m (Ok (k, fd)) s' ->
    lowest_free pc s k /\ j <> 0 /\ fd = fd_of (p_gen s n) n k /\
    (forall q, p_h s' q = if q =? k then new_handle n j dir m else p_h s q) /\ p_gen s' = p_gen s /\ p_t s' = p_t s /\ (forall q, q <> n -> p_v s' q = p_v s q)).
  { intros s0 j dir (R1 & R2 & R3 & R4) RV ((A & B & D & E & F) & EQ & NZ). injection EQ as -> ->. split; [auto|]. split; [auto|]. split; [now rewrite R4|]. split; [intros q; rewrite F, R2; auto|].
    split; [congruence|]. split; [congruence|]. intros q Hq. rewrite E. auto. }
  assert (EXI : forall s0 j, rest s s0 -> (forall q, q <> n -> p_v s0 q = p_v s q) -> open_existing pc s0 n j k' m ty (Ok (k, fd)) s' -> exists dir : bool, 
    lowest_free pc s k /\ j <> 0 /\ fd = fd_of (p_gen s n) n k /\
    (forall q, p_h s' q = if q =? k then new_handle n j dir m else p_h s q) /\ p_gen s' = p_gen s /\ p_t s' = p_t s /\ (forall q, q <> n -> p_v s' q = p_v s q)).
  { intros s0 j RS RV E. assert (TR : forall o s1 dir, did pc s0 n (CTruncate j 0) o s1 -> match o with Ok _ => opened s1 n j k' dir m (Ok (k, fd)) s' | Err e => Ok (k, fd) = Err e /\ still s1 s' end ->
      lowest_free pc s k /\ j <> 0 /\ fd = fd_of (p_gen s n) n k /\
      (forall q, p_h s' q = if q =? k then new_handle n j dir m else p_h s q) /\ p_gen s' = p_gen s /\ p_t s' = p_t s /\ (forall q, q <> n -> p_v s' q = p_v s q)).
    { intros o s1 dir D1 D2. destruct o as [o|e]; [|destruct D2; discriminate]. apply (FIN s1 j dir); auto.
      - eapply rest_trans; [exact RS|]. apply D1.
      - intros q Hq. destruct D1 as (_ & v' & _ & W). rewrite W. destruct (N.eqb_spec q n); [congruence|auto]. }
    destruct E as [(_ & E)|(_ & E)].
    - exists false. destruct ty; [| destruct E; discriminate |]; destruct (has m O_TRUNC); try (destruct E as (o & s1 & D1 & D2); eauto; fail); apply (FIN s0); auto.
    - exists true. destruct (match ty with FTYPE_FILE => true | _ => negb (has m O_RDONLY) end); [destruct E; discriminate|]. destruct (has m O_TRUNC); try (destruct E as (o & s1 & D1 & D2); eauto; fail); apply (FIN s0); auto. }
  destruct (has m O_CREAT) eqn:HCR.
  - destruct (vlook_name n EISDIR (p_v s n) i l) as [[d nm]|e] eqn:EL; [|destruct H; discriminate]. destruct H as (o & s1 & D & H).
    assert (RS : rest s s1) by apply D. assert (RV : forall q, q <> n -> p_v s1 q = p_v s q). { destruct D as (_ & v' & _ & W). intros q Hq. rewrite W. destruct (N.eqb_spec q n); congruence. }
    destruct o as [[ | j | | | | ]|e]; try contradiction.
    + destruct H as (_ & H). destruct (FIN s1 j false RS RV H) as (A1 & A2 & A3 & A4 & A5 & A6 & A7). exists n, i, l, j, false. repeat (split; [assumption|]). split; [discriminate|eauto].
    + destruct (errno_eqb e EEXIST && negb (has m O_EXCL)); [|destruct H; discriminate]. destruct H as (j & _ & H). destruct (EXI s1 j RS RV H) as (dir & A1 & A2 & A3 & A4 & A5 & A6 & A7).
      exists n, i, l, j, dir. repeat (split; [assumption|]). split; [discriminate|eauto].
  - destruct (vlook n (p_v s n) i l) as [j|e] eqn:EL; [|destruct H; discriminate]. destruct (EXI s j) as (dir & A1 & A2 & A3 & A4 & A5 & A6 & A7); auto; [repeat split|].
    exists n, i, l, j, dir. repeat (split; [assumption|]). split; [auto|discriminate].
Qed.
Lemma open_failed tid path m ty s e s' : open_post pc tid path m ty s (Err e) s' -> rest s s'.
Proof using.
  intros (st & S & H). destruct st as [[[n i] l]|e0]; [|destruct H as (_ & ST); apply ST]. destruct (s_ro _ && _); [destruct H as (_ & ST); apply ST|].
  destruct H as [(_ & _ & ST)|(k' & LF & H)]; [apply ST|].
  assert (EXI : forall s0 j, rest s s0 -> open_existing pc s0 n j k' m ty (Err e) s' -> rest s s').
  { intros s0 j RS H0. assert (OPX : forall s1 dir, opened s1 n j k' dir m (Err e) s' -> False) by (intros s1 dir (_ & X & _); discriminate).
    assert (TR : forall dir, (exists o s1, did pc s0 n (CTruncate j 0) o s1 /\ match o with Ok _ => opened s1 n j k' dir m (Err e) s' | Err e0 => @Err (N * Z) e = Err e0 /\ still s1 s' end) -> rest s s').
    { intros dir (o & s1 & D1 & D2). destruct o; [now destruct (OPX _ _ D2)|]. destruct D2 as (_ & ST). eapply rest_trans; [exact RS|]. eapply rest_trans; [apply D1|apply ST]. }
    destruct H0 as [(_ & H0)|(_ & H0)]; repeat match type of H0 with context [if ?b then _ else _] => destruct b end; try (now destruct (OPX _ _ H0)); try (eapply TR; eassumption); destruct H0 as (_ & ST); eapply rest_trans; [exact RS|apply ST|exact RS|apply ST]. }
  destruct (has m O_CREAT).
  - destruct (vlook_name n EISDIR (p_v s n) i l) as [[d nm]|e1]; [|destruct H as (_ & ST); apply ST]. destruct H as (o & s1 & D & H). assert (RS : rest s s1) by apply D.
    destruct o as [[ | j | | | | ]|e1]; try contradiction; [destruct H as (_ & _ & X & _); discriminate|].
    destruct (errno_eqb e1 EEXIST && negb (has m O_EXCL)); [|destruct H as (_ & ST); eapply rest_trans; [exact RS|apply ST]]. destruct H as (j & _ & H). eauto.
  - destruct (vlook n (p_v s n) i l) as [j|e1]; [|destruct H as (_ & ST); apply ST]. apply (EXI s j); auto. repeat split.
Qed.

(** ** Which tables a call changes *)
Definition plain (c : pcall) : bool :=
  match c with
  | PMount _ _ | PUmount _ _ | PRollback _ | POpen _ _ | POpendir _ | PClose _ | PRead _ _ | PWrite _ _ _ | PLseek _ _ _ | PReaddir _ | PRewinddir _ | PClosedir _ | PChdir _ => false
  | _ => true
  end.
Ltac rs := match goal with
  | H : still ?a ?b |- rest ?a ?b => apply H
  | H : did pc ?a _ _ _ ?b |- rest ?a ?b => apply H
  | H : _ /\ _ |- _ => destruct H
  | H : exists _, _ |- _ => destruct H
  | H : _ \/ _ |- _ => destruct H
  | H : False |- _ => destruct H
  | H : context [match ?x with _ => _ end] |- _ => destruct x
  end.
Lemma effect_plain tid c s r s' : effect pc tid c s r s' -> plain c = true -> rest s s'.
Proof using.
  intros E P. destruct c; try discriminate; cbn [effect] in E;
    unfold core_post, getmask_post, statvfs_post, unlink_post, mkdir_post, rename_post, link_post, fsync_post, ftruncate_post, fstat_post, getcwd_post, sync_post, on_vol_path, on_fd in E; cbv zeta in E; repeat rs; auto.
Qed.
(** The calls that move the offset of handle [k], and those that close it. *)
Definition moves (c : pcall) (s : pst) (k : N) : Prop :=
  match c with PRead fd _ | PWrite fd _ _ | PLseek fd _ _ => live s fd k | PReaddir d | PRewinddir d => d = k | _ => False end.
Definition closes (c : pcall) (s : pst) (k : N) : Prop :=
  match c with PClose fd => live s fd k | PClosedir d => d = k | PUmount p f => has f 1 = true /\ volume_path pc p (Ok (h_vol (p_h s k))) | _ => False end.
Definition issued (r : res pout) (s' : pst) (k : N) : Prop :=
  r = Ok (RFd (fd_of (p_gen s' (h_vol (p_h s' k))) (h_vol (p_h s' k)) k)) \/ r = Ok (RDir k).
Lemma at_k (f g : N -> handle) k h j : (forall q, f q = if q =? k then h else g q) -> f j = g j \/ j = k /\ f j = h.
Proof using. intros H. rewrite H. destruct (N.eqb_spec j k); auto. Qed.
Lemma effect_h tid c s r s' k : effect pc tid c s r s' -> k < HC ->
  p_h s' k = p_h s k \/
  (exists o, p_h s' k = with_off (p_h s k) o) /\ moves c s k \/
  p_h s' k = freed (p_h s k) /\ closes c s k \/
  h_ino (p_h s k) = 0 /\ h_ino (p_h s' k) <> 0 /\ issued r s' k.
Proof using.
  intros E Hk. destruct (plain c) eqn:P. { left. destruct (effect_plain _ _ _ _ _ E P) as (_ & -> & _). auto. }
  assert (SL : forall a, still s a -> p_h a = p_h s) by (intros a ((_ & X & _) & _); auto).
  destruct c; try discriminate; cbn [effect] in E.
  - left. destruct E as (x & _ & E). destruct x as [n|e]; [|rewrite SL; tauto]. destruct E as (_ & E). destruct (v_mnt (p_v s n)); [rewrite SL; tauto|]. destruct E as (o & v' & _ & _ & _ & _ & -> & _). auto.
  - unfold umount_post in E. destruct (negb _). { left. rewrite SL; tauto. } destruct E as (x & VP & E). destruct x as [n|e]; [|left; rewrite SL; tauto]. destruct E as (_ & E). destruct (negb _). { left. rewrite SL; tauto. }
    destruct E as [(_ & _ & _ & E)|(FO & _ & _ & _ & _ & E1 & E2 & _)]; [left; now rewrite SL|].
    destruct (N.eq_dec (h_ino (p_h s k)) 0) as [Z|Z]; [left; apply E2; auto; intros (X & _); auto|]. destruct (N.eq_dec (h_vol (p_h s k)) n) as [V|V]; [|left; apply E2; auto; intros (_ & X); auto].
    right. right. left. split; [apply E1; auto; split; auto|]. cbn. rewrite V. split; auto. destruct FO as [FO|FO]; auto. exfalso. apply FO. exists k. split; auto. split; auto.
  - left. destruct E as (x & _ & E). destruct x as [n|e]; [|rewrite SL; tauto]. destruct E as (_ & [(_ & _ & E)|(_ & o & v' & _ & _ & _ & _ & _ & -> & _)]); auto. rewrite SL; tauto.
  - unfold open_call_post in E. destruct (mode_bad mode). { left. now destruct E as (_ & ->). } destruct E as (r0 & E & ->). destruct r0 as [[k0 fd]|e].
    + destruct (open_done _ _ _ _ _ _ _ _ E) as (n & i & l & j & dir & _ & LF & NZ & -> & EH & EG & _). destruct (at_k _ _ _ _ k EH) as [X|(-> & X)]; auto. right. right. right. rewrite X. split; [apply LF|]. split; [exact NZ|]. left. rewrite X, EG. reflexivity.
    + left. destruct (open_failed _ _ _ _ _ _ _ E) as (_ & -> & _). auto.
  - destruct E as [(k0 & LV & _ & s1 & MT & (A & B & D & F & G))|(_ & _ & E)]; [|left; now rewrite SL].
    assert (p_h s1 = p_h s) by (destruct (negb _ && _); cbn in MT; [apply MT|now apply SL]). destruct (at_k _ _ _ _ k G) as [X|(-> & X)]; [left; congruence|]. right. right. left. auto.
  - destruct E as [(k0 & LV & E)|(_ & _ & E)]; [|left; now rewrite SL]. cbv zeta in E. destruct (h_dir _); [left; rewrite SL; tauto|]. destruct (negb _); [left; rewrite SL; tauto|].
    destruct E as (c & f & _ & _ & (_ & _ & _ & _ & G)). destruct (at_k _ _ _ _ k G) as [X|(-> & X)]; [auto|]. right. left. split; eauto.
  - destruct E as [(k0 & LV & E)|(_ & _ & E)]; [|left; now rewrite SL]. cbv zeta in E. destruct (h_dir _ || negb _); [left; rewrite SL; tauto|].
    destruct E as (nl & sz & bl & _ & s1 & o & s2 & (_ & _ & _ & _ & G) & D & E). assert (E2 : p_h s2 = p_h s1) by apply D.
    assert (X : forall q, p_h s' q = p_h s q \/ q = k0 /\ exists o, p_h s' q = with_off (p_h s k0) o).
    { intros q. destruct o as [[]|e]; try contradiction.
      - destruct E as (_ & (_ & _ & _ & _ & G2)). rewrite G2, E2, G. destruct (N.eqb_spec q k0); eauto.
      - destruct E as (_ & ((_ & -> & _) & _)). rewrite E2, G. destruct (N.eqb_spec q k0); eauto. }
    destruct (X k) as [Y|(-> & Y)]; auto.
  - destruct E as [(k0 & LV & E)|(_ & _ & E)]; [|left; now rewrite SL]. cbv zeta in E. destruct (h_dir _); [left; rewrite SL; tauto|]. destruct E as (nl & sz & bl & _ & E).
    destruct (seek_from _ _ _); [|left; rewrite SL; tauto]. destruct (_ && _); [|left; rewrite SL; tauto]. destruct E as (_ & (_ & _ & _ & _ & G)). destruct (at_k _ _ _ _ k G) as [X|(-> & X)]; [auto|]. right. left. split; eauto.
  - destruct E as (r0 & E & ->). destruct r0 as [[k0 fd]|e].
    + destruct (open_done _ _ _ _ _ _ _ _ E) as (n & i & l & j & dir & _ & LF & NZ & -> & EH & EG & _). destruct (at_k _ _ _ _ k EH) as [X|(-> & X)]; auto. right. right. right. rewrite X. split; [apply LF|]. split; [exact NZ|]. right. reflexivity.
    + left. destruct (open_failed _ _ _ _ _ _ _ E) as (_ & -> & _). auto.
  - destruct E as [(DL & e & _ & (_ & _ & _ & _ & G) & _)|(_ & _ & E)]; [|left; now rewrite SL]. destruct (at_k _ _ _ _ k G) as [X|(-> & X)]; [auto|]. right. left. split; eauto. reflexivity.
  - destruct E as (_ & [(DL & (_ & _ & _ & _ & G))|(_ & E)]); [|left; now rewrite SL]. destruct (at_k _ _ _ _ k G) as [X|(-> & X)]; [auto|]. right. left. split; eauto. reflexivity.
  - destruct E as [(DL & _ & (_ & _ & _ & _ & G))|(_ & _ & E)]; [|left; now rewrite SL]. destruct (at_k _ _ _ _ k G) as [X|(-> & X)]; [auto|]. right. right. left. split; auto. reflexivity.
  - left. destruct E as (x & _ & E). destruct x as [[n j]|e]; [|rewrite SL; tauto]. destruct E as [(_ & _ & E)|(_ & _ & (_ & -> & _))]; auto. now rewrite SL.
Qed.
(** Generations change only when a volume is mounted. *)
Lemma effect_gen tid c s r s' : effect pc tid c s r s' ->
  (forall n, p_gen s' n = p_gen s n) /\ (forall p f o, c = PMount p f -> r = Ok o -> False) \/
  exists p f n, c = PMount p f /\ r = Ok RUnit /\ volume_path pc p (Ok n) /\ n < NV /\ forall m, p_gen s' m = if m =? n then next_gen (p_gen s n) else p_gen s m.
Proof using.
  intros E. destruct (plain c) eqn:P. { left. destruct (effect_plain _ _ _ _ _ E P) as (_ & _ & _ & ->). split; auto. intros; subst; discriminate. }
  assert (SL : forall a, still s a -> p_gen a = p_gen s) by (intros a ((_ & _ & _ & X) & _); auto).
  destruct c; try discriminate; cbn [effect] in E; try (left; split; [|intros; discriminate]; intros n0).
  - destruct E as (x & VP & E). destruct x as [n|e]; [|left; destruct E as (-> & E); rewrite SL by auto; split; auto; discriminate]. destruct E as (Hn & E).
    destruct (v_mnt (p_v s n)); [left; destruct E as (-> & E); rewrite SL by auto; split; auto; discriminate|]. destruct E as (o & v' & _ & _ & -> & _ & _ & _ & G). destruct o as [o|e].
    + right. exists vol, flags, n. split; auto. split; auto. split; auto. split; auto. intros m. rewrite G. now rewrite andb_true_r.
    + left. split; [|discriminate]. intros m. rewrite G, andb_false_r. auto.
  - unfold umount_post in E. destruct (negb _). { rewrite SL; tauto. } destruct E as (x & VP & E). destruct x as [n|e]; [|rewrite SL; tauto]. destruct E as (_ & E). destruct (negb _). { rewrite SL; tauto. }
    destruct E as [(_ & _ & _ & E)|(FO & _ & _ & -> & _)]; [now rewrite SL|auto].
  - destruct E as (x & _ & E). destruct x as [n|e]; [|rewrite SL; tauto]. destruct E as (_ & [(_ & _ & E)|(_ & o & v' & _ & _ & _ & _ & -> & _)]); auto. rewrite SL; tauto.
  - unfold open_call_post in E. destruct (mode_bad mode). { now destruct E as (_ & ->). } destruct E as (r0 & E & ->). destruct r0 as [[k0 fd]|e].
    + destruct (open_done _ _ _ _ _ _ _ _ E) as (n & i & l & j & dir & _ & LF & NZ & _ & EH & -> & _). auto.
    + destruct (open_failed _ _ _ _ _ _ _ E) as (_ & _ & _ & ->). auto.
  - destruct E as [(k0 & LV & _ & s1 & MT & (A & B & D & F & G))|(_ & _ & E)]; [|now rewrite SL]. assert (p_gen s1 = p_gen s) by (destruct (negb _ && _); cbn in MT; [apply MT|now apply SL]). congruence.
  - destruct E as [(k0 & LV & E)|(_ & _ & E)]; [|now rewrite SL]. cbv zeta in E. destruct (h_dir _); [rewrite SL; tauto|]. destruct (negb _); [rewrite SL; tauto|].
    destruct E as (c & f & _ & _ & (_ & _ & -> & _)). auto.
  - destruct E as [(k0 & LV & E)|(_ & _ & E)]; [|now rewrite SL]. cbv zeta in E. destruct (h_dir _ || negb _); [rewrite SL; tauto|].
    destruct E as (nl & sz & bl & _ & s1 & o & s2 & (_ & _ & G & _) & D & E). assert (E2 : p_gen s2 = p_gen s1) by apply D. destruct o as [[]|e]; try contradiction.
    + destruct E as (_ & (_ & _ & -> & _)). congruence.
    + destruct E as (_ & ((_ & _ & _ & ->) & _)). congruence.
  - destruct E as [(k0 & LV & E)|(_ & _ & E)]; [|now rewrite SL]. cbv zeta in E. destruct (h_dir _); [rewrite SL; tauto|]. destruct E as (nl & sz & bl & _ & E).
    destruct (seek_from _ _ _); [|rewrite SL; tauto]. destruct (_ && _); [|rewrite SL; tauto]. destruct E as (_ & (_ & _ & -> & _)). auto.
  - destruct E as (r0 & E & ->). destruct r0 as [[k0 fd]|e].
    + destruct (open_done _ _ _ _ _ _ _ _ E) as (n & i & l & j & dir & _ & LF & NZ & _ & EH & -> & _). auto.
    + destruct (open_failed _ _ _ _ _ _ _ E) as (_ & _ & _ & ->). auto.
  - destruct E as [(DL & e & _ & (_ & _ & -> & _) & _)|(_ & _ & E)]; [|now rewrite SL]. auto.
  - destruct E as (_ & [(DL & (_ & _ & -> & _))|(_ & E)]); [|now rewrite SL]. auto.
  - destruct E as [(DL & _ & (_ & _ & -> & _))|(_ & _ & E)]; [|now rewrite SL]. auto.
  - destruct E as (x & _ & E). destruct x as [[n j]|e]; [|rewrite SL; tauto]. destruct E as [(_ & _ & E)|(_ & _ & (_ & _ & -> & _))]; auto. now rewrite SL.
Qed.
(** Task slots. *)
Lemma effect_t tid c s r s' k : effect pc tid c s r s' -> k < TC ->
  p_t s' k = p_t s k \/
  t_id (p_t s k) = tid /\ t_id (p_t s' k) = tid /\ (exists p, c = PChdir p) /\ r = Ok RUnit \/
  exists p n, (c = PRollback p \/ exists f, c = PUmount p f) /\ r = Ok RUnit /\ volume_path pc p (Ok n) /\ t_vol (p_t s k) = n /\ p_t s' k = mkT (t_id (p_t s k)) n ROOT.
Proof using.
  intros E Hk. destruct (plain c) eqn:P. { left. destruct (effect_plain _ _ _ _ _ E P) as (_ & _ & -> & _). auto. }
  assert (SL : forall a, still s a -> p_t a = p_t s) by (intros a ((_ & _ & X & _) & _); auto).
  destruct c; try discriminate; cbn [effect] in E; try (left; intros n0).
  - left. destruct E as (x & VP & E). destruct x as [n|e]; [|rewrite SL; tauto]. destruct E as (Hn & E).
    destruct (v_mnt (p_v s n)); [rewrite SL; tauto|]. destruct E as (o & v' & _ & _ & _ & _ & _ & -> & G). auto.
  - unfold umount_post in E. destruct (negb _). { left. rewrite SL; tauto. } destruct E as (x & VP & E). destruct x as [n|e]; [|left; rewrite SL; tauto]. destruct E as (_ & E). destruct (negb _). { left. rewrite SL; tauto. }
    destruct E as [(_ & _ & _ & E)|(FO & -> & _ & _ & CW & _)]; [left; now rewrite SL|]. specialize (CW k Hk). destruct (N.eqb_spec (t_vol (p_t s k)) n); [|auto]. right. right. exists vol, n. split; eauto 8.
  - destruct E as (x & VP & E). destruct x as [n|e]; [|left; rewrite SL; tauto]. destruct E as (_ & [(_ & _ & E)|(_ & o & v' & _ & _ & -> & _ & _ & _ & CW)]); [left; rewrite SL; tauto|]. destruct o as [o|e]; [|left; congruence].
    specialize (CW k Hk). destruct (N.eqb_spec (t_vol (p_t s k)) n); [|auto]. right. right. exists vol, n. split; auto 8.
  - left. unfold open_call_post in E. destruct (mode_bad mode). { now destruct E as (_ & ->). } destruct E as (r0 & E & ->). destruct r0 as [[k0 fd]|e].
    + destruct (open_done _ _ _ _ _ _ _ _ E) as (n & i & l & j & dir & _ & LF & NZ & _ & EH & _ & -> & _). auto.
    + destruct (open_failed _ _ _ _ _ _ _ E) as (_ & _ & -> & _). auto.
  - left. destruct E as [(k0 & LV & _ & s1 & MT & (A & B & D & F & G))|(_ & _ & E)]; [|now rewrite SL]. assert (p_t s1 = p_t s) by (destruct (negb _ && _); cbn in MT; [apply MT|now apply SL]). congruence.
  - left. destruct E as [(k0 & LV & E)|(_ & _ & E)]; [|now rewrite SL]. cbv zeta in E. destruct (h_dir _); [rewrite SL; tauto|]. destruct (negb _); [rewrite SL; tauto|].
    destruct E as (c & f & _ & _ & (_ & -> & _)). auto.
  - left. destruct E as [(k0 & LV & E)|(_ & _ & E)]; [|now rewrite SL]. cbv zeta in E. destruct (h_dir _ || negb _); [rewrite SL; tauto|].
    destruct E as (nl & sz & bl & _ & s1 & o & s2 & (_ & G & _) & D & E). assert (E2 : p_t s2 = p_t s1) by apply D. destruct o as [[]|e]; try contradiction.
    + destruct E as (_ & (_ & -> & _)). congruence.
    + destruct E as (_ & ((_ & _ & -> & _) & _)). congruence.
  - left. destruct E as [(k0 & LV & E)|(_ & _ & E)]; [|now rewrite SL]. cbv zeta in E. destruct (h_dir _); [rewrite SL; tauto|]. destruct E as (nl & sz & bl & _ & E).
    destruct (seek_from _ _ _); [|rewrite SL; tauto]. destruct (_ && _); [|rewrite SL; tauto]. destruct E as (_ & (_ & -> & _)). auto.
  - left. destruct E as (r0 & E & ->). destruct r0 as [[k0 fd]|e].
    + destruct (open_done _ _ _ _ _ _ _ _ E) as (n & i & l & j & dir & _ & LF & NZ & _ & EH & _ & -> & _). auto.
    + destruct (open_failed _ _ _ _ _ _ _ E) as (_ & _ & -> & _). auto.
  - left. destruct E as [(DL & e & _ & (_ & -> & _) & _)|(_ & _ & E)]; [|now rewrite SL]. auto.
  - left. destruct E as (_ & [(DL & (_ & -> & _))|(_ & E)]); [|now rewrite SL]. auto.
  - left. destruct E as [(DL & _ & (_ & -> & _))|(_ & _ & E)]; [|now rewrite SL]. auto.
  - destruct E as (x & _ & E). destruct x as [[n j]|e]; [|left; rewrite SL; tauto]. destruct E as [(_ & _ & E)|(_ & -> & (_ & _ & _ & _ & E))]; [left; now rewrite SL|].
    specialize (E k Hk). destruct (N.eqb_spec (t_id (p_t s k)) tid) as [X|X]; [|auto]. right. left. split; auto. rewrite E. split; auto. split; eauto.
Qed.

(** ** Every call *)
Lemma joins_quiet tid s s1 : joins pc tid s s1 -> quiet s s1.
Proof using. intros [(-> & _)|(_ & k & _ & _ & ->)]; repeat split; auto. Qed.
Lemma quiet_live s s1 fd k : quiet s s1 -> live s1 fd k <-> live s fd k.
Proof using. intros (A & B & C). unfold PosixCalls5.live. rewrite A, B. tauto. Qed.
Lemma call_any tid c r x x' : preach x -> pstep x (EvCall tid c r) x' ->
  (exists s1, (fst x = s1 \/ joins pc tid (fst x) s1) /\ Ctx tid s1 /\ effect pc tid c s1 r (fst x') /\ precheck c = None) \/
  ((fst x' = fst x \/ joins pc tid (fst x) (fst x')) /\ ((exists e, r = Err e) \/ exists d, c = PRewinddir d)).
Proof.
  intros R ST. inversion ST as [? ? ? ? ? NZ FD E HO| | | | | |]; subst. destruct (precheck c) as [er|] eqn:PK.
  - right. unfold api in E. rewrite PK in E. cbn in E. injection E as <- <-. split; [|eauto]. unfold set_errno in *. destruct (red_errnoptr pc tid (fst x)) as [k s'] eqn:ER. cbn [fst].
    destruct (errnoptr_spec pc tid (fst x) k s' NZ (preach_inv pc PC _ R) ER) as (_ & _ & X). destruct k as [k|]; [right; apply X|left; apply X].
  - destruct (api_effect pc PC tid c r x x') as [(s1 & A & B & D & F & G)|(e & _ & A & B)]; auto.
    + left. exists s1. auto.
    + right. split; auto. destruct B as [->|(_ & B)]; eauto.
Qed.
Lemma any_quiet tid s s1 : s = s1 \/ joins pc tid s s1 -> quiet s s1.
Proof using. intros [<-|J]; [repeat split|eapply joins_quiet; eauto]. Qed.

(** * C26: descriptors *)
Lemma live_bits x fd k : preach x -> p_init (fst x) = true -> live (fst x) fd k ->
  let n := h_vol (p_h (fst x) k) in fd = fd_of (p_gen (fst x) n) n k /\ 1 <= p_gen (fst x) n <= 2047 /\ n < NV /\ k < HC.
Proof.
  intros R IN (A & B & C). pose proof (preach_inv pc PC x R) as HP. destruct (i_h _ _ HP IN k A B) as (X & Y & _). destruct (i_gen _ _ HP _ X) as (G1 & G2). cbn zeta. repeat split; auto.
Qed.
(** Every open handle has exactly one descriptor, which encodes its mount generation, volume and index
    and is an int32_t not below 3; different handles have different descriptors. *)
Theorem C26_descriptor x fd k : preach x -> p_init (fst x) = true -> live (fst x) fd k ->
  (3 <= fd < 2147483648)%Z /\ FildesUnpack fd = (p_gen (fst x) (h_vol (p_h (fst x) k)), h_vol (p_h (fst x) k), k) /\
  forall fd' k', live (fst x) fd' k' -> (fd' = fd <-> k' = k).
Proof.
  intros R IN LV. destruct (live_bits x fd k R IN LV) as (E & HG & Hn & Hk). pose proof (ok_nv _ PC). pose proof (ok_hc _ PC).
  assert (UN : FildesUnpack fd = (p_gen (fst x) (h_vol (p_h (fst x) k)), h_vol (p_h (fst x) k), k)). { rewrite E. apply unpack_of; lia. }
  split; [rewrite E; unfold fd_of; lia|]. split; [exact UN|]. intros fd' k' LV'. destruct (live_bits x fd' k' R IN LV') as (E' & HG' & Hn' & Hk').
  assert (UN' : FildesUnpack fd' = (p_gen (fst x) (h_vol (p_h (fst x) k')), h_vol (p_h (fst x) k'), k')). { rewrite E'. apply unpack_of; lia. }
  split; [|intros ->; rewrite E, E'; auto]. intros ->. rewrite UN in UN'. now injection UN'.
Qed.
(** A descriptor returned by red_open is new, and the earlier ones stay. *)
Theorem C26_open x tid path m fd x' : preach x -> pstep x (EvCall tid (POpen path m) (Ok (RFd fd))) x' ->
  exists k, live (fst x') fd k /\ (forall k', ~ live (fst x) fd k') /\ forall fd' k', live (fst x) fd' k' -> live (fst x') fd' k' /\ fd' <> fd.
Proof.
  intros R ST. pose proof (preach_step pc _ _ _ R ST) as R'. destruct (call_any _ _ _ _ _ R ST) as [(s1 & J & CX & E & _)|(_ & [(e & X)|(d & X)])]; try discriminate.
  pose proof (any_quiet _ _ _ J) as Q. cbn [effect] in E. unfold open_call_post in E. destruct (mode_bad m); [destruct E; discriminate|]. destruct E as (r0 & E & ER). destruct r0 as [[k fd0]|e]; [|discriminate]. injection ER as <-.
  destruct (open_done _ _ _ _ _ _ _ _ E) as (n & i & l & j & dir & SS & LF & NZ & EF & EH & EG & _). pose proof (starts_nv pc _ _ _ _ _ _ CX SS) as Hn.
  pose proof (ok_nv _ PC). pose proof (ok_hc _ PC). destruct (i_gen _ _ (x_inv _ _ _ CX) n Hn) as (HG & _).
  assert (NL : forall k', ~ live s1 fd k').
  { intros k' (A & B & D). destruct (i_h _ _ (x_inv _ _ _ CX) (x_init _ _ _ CX) k' A B) as (V1 & V2 & _). destruct (i_gen _ _ (x_inv _ _ _ CX) _ V1) as (HG' & _).
    assert (U1 : FildesUnpack fd = (p_gen s1 n, n, k)) by (rewrite EF; destruct LF; apply unpack_of; lia).
    assert (U2 : FildesUnpack fd = (p_gen s1 (h_vol (p_h s1 k')), h_vol (p_h s1 k'), k')) by (rewrite D; apply unpack_of; lia).
    rewrite U1 in U2. injection U2 as _ _ <-. apply B. apply LF. }
  exists k. split; [|split].
  - split; [apply LF|]. rewrite EH, N.eqb_refl. cbn. rewrite EG. auto.
  - intros k' LV. apply (NL k'). now apply (quiet_live _ _ _ _ Q).
  - intros fd' k' LV. apply (quiet_live _ _ _ _ Q) in LV. split.
    + destruct LV as (A & B & D). assert (k' <> k) by (intros ->; apply B; apply LF). unfold PosixCalls5.live. rewrite EH. destruct (N.eqb_spec k' k); [congruence|]. rewrite EG. auto.
    + intros ->. apply (NL k'); auto.
Qed.
(** ** Generations *)
Definition is_mount (n : N) (e : pev) : Prop := exists tid p f o, e = EvCall tid (PMount p f) (Ok o) /\ volume_path pc p (Ok n).
(** The number of successful mounts of volume [n] in a history. *)
Inductive mounts (n : N) : list pev -> N -> Prop :=
| Mt_nil : mounts n [] 0
| Mt_yes e t j : mounts n t j -> is_mount n e -> mounts n (e :: t) (j + 1)
| Mt_no e t j : mounts n t j -> ~ is_mount n e -> mounts n (e :: t) j.
Lemma volume_path_fun p a b : volume_path pc p a -> volume_path pc p b -> a = b.
Proof.
  intros A B. assert (PN : forall n, picks NV SEP prefix p n -> picks_none NV SEP prefix p -> False).
  { intros n (X & [(Y & D & _)|(Y & _)]) PNO; destruct (PNO n X); tauto. }
  destruct A as [n t P E F|n t P E F|P], B as [n' t' P' E' F'|n' t' P' E' F'|P']; auto; try (exfalso; eauto; fail).
  - now rewrite (picks_fun pc PC _ _ _ P P').
  - rewrite (picks_fun pc PC _ _ _ P P') in E. rewrite E in E'. apply app_inv_head in E'. subst. tauto.
  - rewrite (picks_fun pc PC _ _ _ P P') in E. rewrite E in E'. apply app_inv_head in E'. subst. tauto.
Qed.
Lemma step_gen x e x' n : preach x -> pstep x e x' -> e <> EvRestart -> n < NV ->
  is_mount n e /\ p_gen (fst x') n = next_gen (p_gen (fst x) n) \/ ~ is_mount n e /\ p_gen (fst x') n = p_gen (fst x) n.
Proof.
  intros R ST NR Hn. pose proof (preach_inv pc PC x R) as HP.
  assert (NM : forall e, (forall tid c r, e <> EvCall tid c r) -> ~ is_mount n e) by (intros e0 X (tid & p & f & o & -> & _); eapply X; eauto).
  destruct e as [tid c r| | | | |]; try congruence; try (right; split; [apply NM; discriminate|]).
  - destruct (call_any _ _ _ _ _ R ST) as [(s1 & J & CX & E & _)|(J & ER)].
    + pose proof (any_quiet _ _ _ J) as (_ & QG & _). destruct (effect_gen _ _ _ _ _ E) as [(A & B)|(p & f & m & -> & -> & VP & Hm & G)].
      * right. split; [|now rewrite A]. intros (tid' & p & f & o & EQ & _). injection EQ as -> -> ->. eauto.
      * destruct (N.eq_dec n m) as [->|NE].
        -- left. split; [exists tid, p, f, RUnit; auto|]. rewrite G, N.eqb_refl. now rewrite QG.
        -- right. split; [intros (tid' & p' & f' & o & EQ & VP'); injection EQ as <- <- <- _; pose proof (volume_path_fun _ _ _ VP VP'); congruence|].
           rewrite G. destruct (N.eqb_spec n m); [congruence|]. apply QG.
    + right. split.
      * intros (tid' & p & f & o & EQ & _). injection EQ as -> -> ->. destruct ER as [(e & X)|(d & X)]; discriminate.
      * assert (fst x = fst x' \/ joins pc tid (fst x) (fst x')) as J' by (destruct J; auto). apply (any_quiet _ _ _ J').
  - inversion ST as [|? ? ? E| | | | |]; subst. unfold red_init in E. destruct (p_init (fst x)); injection E as <- <-; auto.
  - inversion ST as [| |? ? ? ? NZ E| | | |]; subst. unfold red_uninit in E. destruct (negb (p_init (fst x))); [injection E as <- <-; auto|].
    destruct (PosixEnter pc tid (fst x)) as [[u|er] s1] eqn:EE; pose proof (enter_spec pc _ _ _ _ NZ HP EE) as EN.
    + destruct EN as (_ & J & CX & _). destruct (joins_quiet _ _ _ J) as (_ & QG & _). destruct (first _ _).
      * cbn in E. injection E as <- <-. unfold set_errno. cbn [fst]. destruct (red_errnoptr pc tid s1) as [k s2] eqn:E2. cbn [fst]. destruct (errnoptr_spec pc _ _ _ _ NZ (x_inv _ _ _ CX) E2) as (_ & _ & X).
        destruct k; [destruct X as (_ & _ & _ & J2); destruct (joins_quiet _ _ _ J2) as (_ & QG2 & _); rewrite QG2; auto|]. destruct X as (-> & _). auto.
      * injection E as <- <-. cbn. auto.
    + destruct EN as (-> & _). cbn in E. injection E as <- <-. unfold set_errno. cbn [fst]. destruct (red_errnoptr pc tid (fst x)) as [k s2] eqn:E2. cbn [fst]. destruct (errnoptr_spec pc _ _ _ _ NZ HP E2) as (_ & _ & X).
        destruct k; [destruct X as (_ & _ & _ & J2); destruct (joins_quiet _ _ _ J2) as (_ & QG2 & _); rewrite QG2; auto|]. destruct X as (-> & _). auto.
  - inversion ST as [| | |? ? ? ? ? NZ E| | |]; subst. cbn [fst]. destruct (errnoptr_spec pc _ _ _ _ NZ HP E) as (_ & _ & _ & _ & _ & J). apply (joins_quiet _ _ _ J).
  - inversion ST; subst. reflexivity.
Qed.
Lemma next_gen_cyc g j : 1 <= g <= 2047 -> next_gen ((g - 1 + j) mod 2047 + 1) = (g - 1 + (j + 1)) mod 2047 + 1.
Proof using.
  intros H. replace (g - 1 + (j + 1)) with (g - 1 + j + 1) by lia. generalize (g - 1 + j). intros a. unfold next_gen. pose proof (N.mod_lt a 2047 ltac:(lia)) as M. rewrite (N.add_mod a 1 2047) by lia. change (1 mod 2047) with 1.
  destruct (N.ltb_spec 2047 (a mod 2047 + 1 + 1)) as [L|L].
  - replace (a mod 2047) with 2046 by lia. reflexivity.
  - rewrite (N.mod_small (a mod 2047 + 1)) by lia. reflexivity.
Qed.
(** The generation of a volume counts its mounts, modulo 2047. *)
Theorem C26_generation x t x' n j : preach x -> psteps x t x' -> no_restart t -> n < NV -> mounts n t j -> 1 <= p_gen (fst x) n <= 2047 ->
  p_gen (fst x') n = (p_gen (fst x) n - 1 + j) mod 2047 + 1.
Proof.
  intros R ST NR Hn MT HG. revert j MT NR. induction ST as [x|x t x1 e x2 ST IH S1]; intros j MT NR.
  - inversion MT; subst. rewrite N.add_0_r, N.mod_small; lia.
  - assert (R1 : preach x1) by (eapply (preach_steps pc); eauto). assert (NR1 : no_restart t) by (intros X; apply NR; now right).
    assert (e <> EvRestart) by (intros X; apply NR; left; auto). destruct (step_gen _ _ _ n R1 S1 H Hn) as [(IM & EG)|(IM & EG)].
    + inversion MT as [|e0 t0 j0 MT0 IM0|e0 t0 j0 MT0 IM0]; subst; [|tauto]. rewrite EG, (IH R HG j0 MT0 NR1). apply next_gen_cyc; auto.
    + inversion MT as [|e0 t0 j0 MT0 IM0|e0 t0 j0 MT0 IM0]; subst; [tauto|]. rewrite EG. apply IH; auto.
Qed.
(** The calls on a descriptor. *)
Definition on_desc (c : pcall) (fd : Z) : Prop :=
  match c with PClose f | PRead f _ | PWrite f _ _ | PFsync f | PLseek f _ _ | PFtruncate f _ | PFstat f => f = fd | _ => False end.
(** A descriptor that is not live is rejected. *)
Theorem C26_rejected x tid c fd r x' : preach x -> ready tid x -> pstep x (EvCall tid c r) x' -> precheck c = None -> on_desc c fd -> (forall k, ~ live (fst x) fd k) ->
  r = Err EBADF /\ quiet (fst x) (fst x').
Proof.
  intros R RD ST PK OD NL. destruct (call_ready _ _ _ _ _ R RD ST PK) as (E & _). destruct c; cbn in OD; try contradiction; subst;
    (destruct E as [(k & LV & _)|(_ & ER & SL)]; [now destruct (NL k)|]; split; [auto|now apply still_quiet]).
Qed.
(** A descriptor of an earlier mount is dead, unless the number of mounts since is a multiple of 2047. *)
Theorem C26_stale x t x' fd k j : preach x -> psteps x t x' -> no_restart t -> p_init (fst x) = true -> live (fst x) fd k -> mounts (h_vol (p_h (fst x) k)) t j -> j mod 2047 <> 0 ->
  forall k', ~ (p_init (fst x') = true /\ live (fst x') fd k').
Proof.
  intros R ST NR IN LV MT NJ k' (IN' & LV'). destruct (live_bits x fd k R IN LV) as (E & HG & Hn & Hk). set (n := h_vol (p_h (fst x) k)) in *.
  assert (R' : preach x') by (eapply (preach_steps pc); eauto). destruct (live_bits x' fd k' R' IN' LV') as (E' & HG' & Hn' & Hk'). pose proof (ok_nv _ PC). pose proof (ok_hc _ PC).
  assert (U1 : FildesUnpack fd = (p_gen (fst x) n, n, k)) by (rewrite E; apply unpack_of; lia).
  assert (U2 : FildesUnpack fd = (p_gen (fst x') (h_vol (p_h (fst x') k')), h_vol (p_h (fst x') k'), k')) by (rewrite E'; apply unpack_of; lia).
  rewrite U1 in U2. injection U2 as G V _. rewrite <- V in *. rewrite (C26_generation x t x' n j R ST NR Hn MT HG) in G.
  set (g := p_gen (fst x) n) in *. clearbody g. clear - G HG NJ. assert (X : (g - 1 + j) mod 2047 = g - 1) by lia. rewrite N.add_mod in X by lia. rewrite (N.mod_small (g - 1)) in X by lia.
  pose proof (N.mod_lt j 2047 ltac:(lia)) as M. set (a := j mod 2047) in *. clearbody a.
  destruct (N.lt_ge_cases (g - 1 + a) 2047) as [L|L]; [rewrite N.mod_small in X by lia; lia|].
  replace (g - 1 + a) with ((g - 1 + a - 2047) + 1 * 2047) in X by lia. rewrite N.mod_add in X by lia. rewrite N.mod_small in X by lia. lia.
Qed.
End PropPosix.
