(** More properties of the POSIX-like API: paths (C25), modes and offsets (C27), files in use (C28),
    unmount and rollback (C29), tasks (C30), red_getcwd (C35). *)
From Verif Require Import Base Count FsState FsDir FsSpec FsSpecN FsCoreP2 FsMach FsVolume FsVolumeP FsReach PropFs PropNs Posix PosixSpec PosixWp PosixPath PosixPath2 PosixInv PosixStart PosixCalls PosixCalls2 PosixCalls3 PosixCalls4 PosixCalls5 PosixCalls6 PosixCalls7 PosixReach PosixSame PropPosix.
From Coq Require Import ZArith.
Ltac Zify.zify_post_hook ::= idtac.

(** The documented open modes (redposix.h): exactly one of O_RDONLY, O_WRONLY, O_RDWR (bits 0, 1, 2),
    optionally O_APPEND (3); O_CREAT (4), O_EXCL (5) and O_TRUNC (6) only if the file may be written;
    O_EXCL only with O_CREAT; no other bits. *)
Definition documented (m : N) : Prop :=
  m < 128 /\
  (N.testbit m 0 = true /\ N.testbit m 1 = false /\ N.testbit m 2 = false /\ N.testbit m 4 = false /\ N.testbit m 5 = false /\ N.testbit m 6 = false \/
   N.testbit m 0 = false /\ (N.testbit m 1 = true /\ N.testbit m 2 = false \/ N.testbit m 1 = false /\ N.testbit m 2 = true) /\
   (N.testbit m 5 = true -> N.testbit m 4 = true)).

Definition documentedb (m : N) : bool :=
  (m <? 128) &&
  (N.testbit m 0 && negb (N.testbit m 1) && negb (N.testbit m 2) && negb (N.testbit m 4) && negb (N.testbit m 5) && negb (N.testbit m 6) ||
   negb (N.testbit m 0) && (N.testbit m 1 && negb (N.testbit m 2) || negb (N.testbit m 1) && N.testbit m 2) && implb (N.testbit m 5) (N.testbit m 4)).
Lemma documentedb_ok m : documentedb m = true <-> documented m.
Proof.
  unfold documentedb, documented. rewrite andb_true_iff, N.ltb_lt.
  destruct (N.testbit m 0), (N.testbit m 1), (N.testbit m 2), (N.testbit m 4), (N.testbit m 5), (N.testbit m 6); cbn; intuition (auto; discriminate).
Qed.
Lemma doc_small : forallb (fun k => Bool.eqb (documentedb (N.of_nat k)) (negb (mode_bad (N.of_nat k)))) (seq 0 128) = true.
Proof. vm_compute. reflexivity. Qed.
Lemma documented_ok m : documented m <-> mode_bad m = false.
Proof.
  rewrite <- documentedb_ok. destruct (N.lt_ge_cases m 128) as [L|L].
  - pose proof (proj1 (forallb_forall _ _) doc_small (N.to_nat m)) as X. cbv beta in X. rewrite N2Nat.id in X. assert (In (N.to_nat m) (seq 0 128)) by (apply in_seq; lia). specialize (X H). apply eqb_prop in X. rewrite X. destruct (mode_bad m); intuition (auto; discriminate).
  - assert (documentedb m = false) as -> by (unfold documentedb; destruct (N.ltb_spec m 128); [lia|reflexivity]).
    assert (N.land m O_MASK < 128). { change O_MASK with (N.ones 7). rewrite N.land_ones. apply N.mod_lt. discriminate. }
    assert (mode_bad m = true) as ->; [|intuition discriminate]. unfold mode_bad. destruct (N.eqb_spec m (N.land m O_MASK)); [lia|reflexivity].
Qed.

Section PropPosix2.
Variable pc : pcfg.
Hypothesis PC : pcfg_ok pc.
Set Default Proof Using "PC".
Notation SEP := (SEP pc).
Notation NV := (NV pc).
Notation HC := (HC pc).
Notation TC := (TC pc).
Notation prefix := (prefix pc).
Notation comps := (comps SEP).
Notation PInv := (PInv pc).
Notation Ctx := (Ctx pc).
Notation preach := (preach pc).
Notation pstep := (pstep pc).
Notation psteps := (psteps pc).
Notation ready := (ready pc).
Notation live := (live pc).
Notation starts := (starts pc).
Notation vask := (vask pc).
Notation vdir := (vdir pc).
Notation vfile := (vfile pc).
Notation vlook := (vlook pc).
Notation vlook_name := (vlook_name pc).
Notation only_volume := (only_volume pc).
Notation at_name := (at_name pc).
Notation at_file := (at_file pc).
Notation SZMAX n := (INODE_SIZE_MAX (gs pc n)).

(** * C25: what a path leads to *)
(** [red_mkdir] creates the last component in the directory reached by the other components. *)
Theorem C25_mkdir x tid path r x' a : preach x -> ready tid x -> pstep x (EvCall tid (PMkdir path) r) x' -> at_name tid path EEXIST (fst x) a ->
  match a with
  | Err e => r = Err e /\ quiet (fst x) (fst x')
  | Ok (n, d, nm) => exists o, only_volume (fst x) n (CCreate d nm true) o (fst x') /\ r = unit_of o
  end.
Proof.
  intros R RD ST A. destruct (call_ready pc PC _ _ _ _ _ R RD ST eq_refl) as ((b & B & E) & _). rewrite (at_name_fun pc PC _ _ _ _ _ _ R RD A B) in *. destruct b as [[[n d] nm]|e].
  - destruct E as (o & D & ->). exists o. split; auto. now apply did_only.
  - destruct E as (-> & E). split; auto. now apply still_quiet.
Qed.
(** [red_unlink]: if it succeeds, it removed that entry. *)
Theorem C25_unlink x tid path x' a : preach x -> ready tid x -> pstep x (EvCall tid (PUnlink path) (Ok RUnit)) x' -> at_name tid path EBUSY (fst x) a ->
  exists n d nm, a = Ok (n, d, nm) /\ only_volume (fst x) n (CUnlink d nm) (Ok OUnit) (fst x').
Proof.
  intros R RD ST A. destruct (call_ready pc PC _ _ _ _ _ R RD ST eq_refl) as ((b & B & E) & _). rewrite (at_name_fun pc PC _ _ _ _ _ _ R RD A B) in *. destruct b as [[[n d] nm]|e]; [|destruct E; discriminate].
  exists n, d, nm. split; auto. destruct (PosixWp.vask pc n (p_v (fst x) n) (CLookup d nm)) as [[ | j | | | | ]|e]; try contradiction; [|destruct E; discriminate].
  destruct E as [(X & _)|[(X & _)|[(X & _)|(_ & _ & _ & o & D & X)]]]; try discriminate. destruct o as [o|e]; [|discriminate]. apply did_only in D.
  destruct D as (D1 & D2 & D3 & D4). assert (o = OUnit) as ->; [|repeat split; auto].
  pose proof (ready_Ctx pc PC _ _ R RD) as CX. assert (Hn : n < NV). { destruct B as (st & S & EB). destruct st as [[[n' i] l]|e']; [|discriminate]. destruct (vlook_name n' EBUSY (p_v (fst x) n') i l) as [[d' nm']|e']; [|discriminate]. injection EB as -> -> ->. eapply (starts_nv pc); eauto. }
  destruct (x_v _ _ _ CX n Hn) as (_ & ab & SA & _). pose proof (step_sim _ (ok_g _ PC n Hn) _ (MMASK pc) (TMASK pc) (TDEF pc) _ _ _ _ SA D4) as (a' & AS & _).
  inversion AS; subst; try discriminate. match goal with X : op_ok _ _ _ _ _ _ _ |- _ => apply X end.
Qed.
(** [red_open] without O_CREAT opens the inode that the path leads to. *)
Theorem C25_open x tid path m fd x' : preach x -> ready tid x -> pstep x (EvCall tid (POpen path m) (Ok (RFd fd))) x' -> has m O_CREAT = false ->
  exists n j k, at_file tid path (fst x) (Ok (n, j)) /\ live (fst x') fd k /\ h_vol (p_h (fst x') k) = n /\ h_ino (p_h (fst x') k) = j /\ forall q, q <> n -> p_v (fst x') q = p_v (fst x) q.
Proof.
  intros R RD ST NC. destruct (call_ready pc PC _ _ _ _ _ R RD ST eq_refl) as (E & _). cbn [effect] in E. unfold open_call_post in E. destruct (mode_bad m); [destruct E; discriminate|].
  destruct E as (r0 & E & ER). destruct r0 as [[k fd0]|e]; [|discriminate]. injection ER as <-.
  destruct (open_done _ _ _ _ _ _ _ _ _ E) as (n & i & l & j & dir & SS & LF & NZ & EF & EH & EG & ET & EV & EL & _). exists n, j, k.
  split; [exists (Ok (n, i, l)); split; auto; now rewrite (EL NC)|]. assert (HK : p_h (fst x') k = new_handle n j dir m) by (rewrite EH, N.eqb_refl; auto).
  unfold PosixCalls5.live. rewrite HK. cbn. rewrite EG. repeat split; auto. apply LF.
Qed.
(** [red_open] with O_CREAT opens the entry that the path names: afterwards the name leads to the file. *)
Theorem C25_create x tid path m fd x' : preach x -> ready tid x -> pstep x (EvCall tid (POpen path m) (Ok (RFd fd))) x' -> has m O_CREAT = true ->
  exists n d nm k, at_name tid path EISDIR (fst x) (Ok (n, d, nm)) /\ live (fst x') fd k /\ h_vol (p_h (fst x') k) = n /\ forall q, q <> n -> p_v (fst x') q = p_v (fst x) q.
Proof.
  intros R RD ST NC. destruct (call_ready pc PC _ _ _ _ _ R RD ST eq_refl) as (E & _). cbn [effect] in E. unfold open_call_post in E. destruct (mode_bad m); [destruct E; discriminate|].
  destruct E as (r0 & E & ER). destruct r0 as [[k fd0]|e]; [|discriminate]. injection ER as <-.
  destruct (open_done _ _ _ _ _ _ _ _ _ E) as (n & i & l & j & dir & SS & LF & NZ & EF & EH & EG & ET & EV & _ & EL). destruct (EL NC) as (d & nm & EN). exists n, d, nm, k.
  split; [exists (Ok (n, i, l)); split; auto; now rewrite EN|]. assert (HK : p_h (fst x') k = new_handle n j dir m) by (rewrite EH, N.eqb_refl; auto).
  unfold PosixCalls5.live. rewrite HK. cbn. rewrite EG. repeat split; auto. apply LF.
Qed.
(** [red_chdir] *)
Theorem C25_chdir x tid path r x' a : preach x -> ready tid x -> pstep x (EvCall tid (PChdir path) r) x' -> at_file tid path (fst x) a ->
  match a with
  | Err e => r = Err e /\ quiet (fst x) (fst x')
  | Ok (n, j) => vdir n (p_v (fst x) n) j /\ r = Ok RUnit /\ cwd_is pc tid (fst x') n j \/ vfile n (p_v (fst x) n) j /\ r = Err ENOTDIR /\ quiet (fst x) (fst x')
  end.
Proof.
  intros R RD ST A. destruct (call_ready pc PC _ _ _ _ _ R RD ST eq_refl) as ((b & B & E) & CX'). rewrite (at_file_fun pc PC _ _ _ _ _ R RD A B) in *. destruct b as [[n j]|e].
  - destruct E as [(V & -> & S)|(V & -> & (A1 & A2 & A3 & A4 & A5))].
    + right. split; auto. split; auto. now apply still_quiet.
    + left. split; auto. split; auto. destruct RD as (_ & _ & k & Hk & EK). exists k. rewrite (A5 k Hk), EK, N.eqb_refl. auto.
  - destruct E as (-> & E). split; auto. now apply still_quiet.
Qed.
(** The result of a call does not depend on what follows the terminator of a path ... *)
Theorem C25_terminator tid c c' p q x : cstr p = cstr q -> c = PMkdir p /\ c' = PMkdir q \/ c = PUnlink p /\ c' = PUnlink q \/ c = PRmdir p /\ c' = PRmdir q \/ c = PChdir p /\ c' = PChdir q \/ c = POpendir p /\ c' = POpendir q \/
  (exists m, c = POpen p m /\ c' = POpen q m) \/ (exists t, c = PRename p t /\ c' = PRename q t \/ c = PRename t p /\ c' = PRename t q \/ c = PLink p t /\ c' = PLink q t \/ c = PLink t p /\ c' = PLink t q) -> api pc tid c x = api pc tid c' x.
Proof.
  intros E H. pose proof (same_terminator pc p q E) as SP. apply (api_same pc PC). assert (forall t, same_path pc t t) by (intros t; now apply same_terminator).
  repeat match type of H with _ \/ _ => destruct H as [H|H] | exists _, _ => destruct H as (? & H) end; destruct H as (-> & ->); constructor; auto.
Qed.
(** ... nor on repeated or trailing separators, provided volume prefixes contain none. *)
Theorem C25_separators tid c c' a s x : nosep pc -> nozero (a ++ SEP :: s) ->
  forall p q, p = a ++ SEP :: SEP :: s /\ q = a ++ SEP :: s \/ a <> [] /\ p = a ++ [SEP] /\ q = a ->
  c = PMkdir p /\ c' = PMkdir q \/ c = PUnlink p /\ c' = PUnlink q \/ c = PRmdir p /\ c' = PRmdir q \/ c = PChdir p /\ c' = PChdir q \/ c = POpendir p /\ c' = POpendir q \/
  (exists m, c = POpen p m /\ c' = POpen q m) \/ (exists t, c = PRename p t /\ c' = PRename q t \/ c = PRename t p /\ c' = PRename t q \/ c = PLink p t /\ c' = PLink q t \/ c = PLink t p /\ c' = PLink t q) -> api pc tid c x = api pc tid c' x.
Proof.
  intros NS NZ p q PQ H. assert (SP : same_path pc p q).
  { destruct PQ as [(-> & ->)|(NE & -> & ->)]; [now apply same_double|]. apply same_trailing; auto. apply nozero_In. apply nozero_In in NZ. intros X. apply NZ. apply in_app_iff. auto. }
  apply (api_same pc PC). assert (forall t, same_path pc t t) by (intros t; now apply same_terminator).
  repeat match type of H with _ \/ _ => destruct H as [H|H] | exists _, _ => destruct H as (? & H) end; destruct H as (-> & ->); constructor; auto.
Qed.

(** * C27: modes and offsets *)
Theorem C27_modes x tid path m r x' : preach x -> ready tid x -> pstep x (EvCall tid (POpen path m) r) x' -> ~ documented m -> r = Err EINVAL /\ quiet (fst x) (fst x').
Proof.
  intros R RD ST ND. destruct (call_ready pc PC _ _ _ _ _ R RD ST eq_refl) as (E & _). cbn [effect] in E. unfold open_call_post in E. destruct (mode_bad m) eqn:EM; [|destruct ND; now apply documented_ok].
  destruct E as (-> & ->). split; auto. repeat split.
Qed.
(** A documented mode is accepted: opening an existing file needs only a free handle and, for writing, a
    writable volume. *)
Theorem C27_accepts x tid path m r x' n j : preach x -> ready tid x -> pstep x (EvCall tid (POpen path m) r) x' -> documented m -> N.testbit m 4 = false -> N.testbit m 6 = false ->
  at_file tid path (fst x) (Ok (n, j)) -> vfile n (p_v (fst x) n) j -> (s_ro (v_s (p_v (fst x) n)) = true -> m = 1) -> (exists k, k < HC /\ h_ino (p_h (fst x) k) = 0) ->
  exists fd k, r = Ok (RFd fd) /\ live (fst x') fd k /\ p_h (fst x') k = mkH j n false (N.testbit m 0 || N.testbit m 2) (N.testbit m 1 || N.testbit m 2) (N.testbit m 3) 0.
Proof.
  intros R RD ST DM N4 N6 AF VF RO (k0 & Hk0 & FK0). destruct (call_ready pc PC _ _ _ _ _ R RD ST eq_refl) as (E & _). cbn [effect] in E. unfold open_call_post in E. rewrite (proj1 (documented_ok m) DM) in E.
  assert (HB : forall b, has m (2 ^ b) = N.testbit m b). { intros b. unfold has. rewrite N.testbit_eqb. destruct (N.eqb_spec (N.land m (2 ^ b)) 0) as [Z|Z].
    - cbn. symmetry. rewrite <- N.testbit_eqb. destruct (N.testbit m b) eqn:TB; auto. exfalso. assert (X : N.testbit (N.land m (2 ^ b)) b = true) by (rewrite N.land_spec, TB, N.pow2_bits_true; auto). rewrite Z, N.bits_0 in X. discriminate.
    - cbn. symmetry. rewrite <- N.testbit_eqb. destruct (N.testbit m b) eqn:TB; auto. exfalso. apply Z. apply N.bits_inj. intros q. rewrite N.land_spec, N.bits_0. destruct (N.eq_dec q b) as [->|NE]; [now rewrite TB|]. rewrite N.pow2_bits_false by auto. apply andb_false_r. }
  assert (HC4 : has m O_CREAT = false) by (rewrite <- N4; apply (HB 4)). assert (HC6 : has m O_TRUNC = false) by (rewrite <- N6; apply (HB 6)).
  destruct E as (r0 & (st & S & E) & ER). destruct AF as (st' & S' & EQ). rewrite (starts_fun pc PC _ _ _ _ _ R RD S S') in *. destruct st as [[[n' i] l]|e]; [|discriminate].
  destruct (vlook n' (p_v (fst x) n') i l) as [j'|e] eqn:EL; [|discriminate]. injection EQ as <- <-.
  assert (ROB : s_ro (v_s (p_v (fst x) n)) && negb (m =? O_RDONLY) = false). { destruct (s_ro _); auto. rewrite (RO eq_refl). reflexivity. }
  rewrite ROB in E. destruct E as [(FU & _)|(k & LF & E)]; [now destruct (FU k0 Hk0)|]. rewrite HC4 in E. destruct E as [(_ & E)|(VD & _)].
  - rewrite HC6 in E. destruct E as ((A & B & C & D & F) & EQ & NZ). subst r0. exists (fd_of (p_gen (fst x) n) n k), k. split; auto.
    assert (HK : p_h (fst x') k = new_handle n j false m) by (rewrite F, N.eqb_refl; auto). unfold PosixCalls5.live. rewrite HK. split.
    + cbn. rewrite C. split; [apply LF|auto].
    + unfold new_handle. change O_RDONLY with (2 ^ 0). change O_WRONLY with (2 ^ 1). change O_RDWR with (2 ^ 2). change O_APPEND with (2 ^ 3). rewrite !HB. reflexivity.
  - exfalso. destruct VF as (a & b & c & E1), VD as (a' & b' & c' & E2). unfold PosixWp.vask in *. congruence.
Qed.
(** Reading. *)
Theorem C27_read x tid fd len r x' k : preach x -> ready tid x -> pstep x (EvCall tid (PRead fd len) r) x' -> len <= INT32_MAX -> live (fst x) fd k ->
  let h := p_h (fst x) k in
  (h_dir h = true -> r = Err EISDIR /\ quiet (fst x) (fst x')) /\
  (h_dir h = false -> h_rd h = false -> r = Err EBADF /\ quiet (fst x) (fst x')) /\
  (h_dir h = false -> h_rd h = true -> exists c f, vask (h_vol h) (p_v (fst x) (h_vol h)) (CRead (h_ino h) (h_off h) len) = Ok (ORead (c, f)) /\ r = Ok (RBytes c f) /\
     only_handle (fst x) k (with_off h (h_off h + c)) (fst x')).
Proof.
  intros R RD ST LN LV h. assert (PK : precheck (PRead fd len) = None) by (cbn; destruct (N.ltb_spec INT32_MAX len); [lia|auto]).
  destruct (call_ready pc PC _ _ _ _ _ R RD ST PK) as (E & _). destruct E as [(k' & LV' & E)|(NL & _)]; [|now destruct (NL k)].
  assert (k' = k) as ->. { destruct (C26_descriptor pc PC x fd k R (proj1 RD) LV) as (_ & _ & U). apply (U fd k' LV'). auto. }
  cbv zeta in E. fold h in E. destruct (h_dir h); [|destruct (h_rd h); cbn [negb] in E].
  - destruct E as (-> & E). split; [|split; discriminate]. intros _. split; auto. now apply still_quiet.
  - split; [discriminate|]. split; [discriminate|]. intros _ _. destruct E as (c & f & A & B & D). exists c, f. split; auto. split; auto. now apply hset_only.
  - destruct E as (-> & E). split; [discriminate|]. split; [|discriminate]. intros _ _. split; auto. now apply still_quiet.
Qed.
(** Writing: at the offset, or at the end of the file for an O_APPEND descriptor. *)
Theorem C27_write x tid fd len src r x' k : preach x -> ready tid x -> pstep x (EvCall tid (PWrite fd len src) r) x' -> len <= INT32_MAX -> live (fst x) fd k ->
  let h := p_h (fst x) k in let n := h_vol h in
  (h_dir h = true \/ h_wr h = false -> r = Err EBADF /\ quiet (fst x) (fst x')) /\
  (h_dir h = false -> h_wr h = true -> exists nl sz bl o, vask n (p_v (fst x) n) (CStat (h_ino h)) = Ok (OStat (false, nl, sz, bl)) /\
     let off := if h_app h then sz else h_off h in
     vstep pc n (p_v (fst x) n) (Some (ECall (CWrite (h_ino h) off len src) o)) (p_v (fst x') n) /\
     (forall m, m <> n -> p_v (fst x') m = p_v (fst x) m) /\ (forall j, j <> k -> p_h (fst x') j = p_h (fst x) j) /\
     match o with
     | Ok (ONum c) => r = Ok (RNum c) /\ c <= len /\ p_h (fst x') k = with_off h (off + c)
     | Ok _ => False
     | Err e => r = Err e /\ p_h (fst x') k = with_off h off
     end).
Proof.
  intros R RD ST LN LV h n. assert (PK : precheck (PWrite fd len src) = None) by (cbn; destruct (N.ltb_spec INT32_MAX len); [lia|auto]).
  destruct (call_ready pc PC _ _ _ _ _ R RD ST PK) as (E & _). destruct E as [(k' & LV' & E)|(NL & _)]; [|now destruct (NL k)].
  assert (k' = k) as ->. { destruct (C26_descriptor pc PC x fd k R (proj1 RD) LV) as (_ & _ & U). apply (U fd k' LV'). auto. }
  pose proof (ready_Ctx pc PC _ _ R RD) as CX. destruct (live_bits pc PC x fd k R (proj1 RD) LV) as (_ & _ & Hn & _).
  cbv zeta in E. fold h in E. fold n in E, Hn. destruct (h_dir h); [|destruct (h_wr h)]; cbn [negb orb] in E.
  - destruct E as (-> & E). split; [|discriminate]. intros _. split; auto. now apply still_quiet.
  - split; [intros [X|X]; discriminate|]. intros _ _. destruct E as (nl & sz & bl & EST & s1 & o & s2 & HS & DD & E). exists nl, sz, bl, o. split; auto. set (off := if h_app h then sz else h_off h) in *. cbv zeta.
    pose proof DD as ((D1 & D2 & D3 & D4) & v' & DV & DW). destruct HS as (A1 & A2 & A3 & A4 & A5). rewrite A4 in DV.
    assert (VS1 : VOK pc n (p_v s1 n)) by (rewrite A4; apply (x_v _ _ _ CX n Hn)).
    assert (FIN : (forall m, p_v (fst x') m = p_v s2 m) -> (forall j, j <> k -> p_h (fst x') j = p_h s2 j) ->
      vstep pc n (p_v (fst x) n) (Some (ECall (CWrite (h_ino h) off len src) o)) (p_v (fst x') n) /\ (forall m, m <> n -> p_v (fst x') m = p_v (fst x) m) /\ (forall j, j <> k -> p_h (fst x') j = p_h (fst x) j)).
    { intros EV EH. split; [rewrite EV, DW, N.eqb_refl; exact DV|]. split.
      - intros m Hm. rewrite EV, DW. destruct (N.eqb_spec m n); [congruence|apply A4].
      - intros j Hj. rewrite EH, D2, A5; auto. destruct (N.eqb_spec j k); congruence. }
    destruct o as [[ | c | | | | ]|e]; try contradiction.
    + destruct E as (-> & (B1 & B2 & B3 & B4 & B5)). destruct FIN as (F1 & F2 & F3); [exact B4|intros j Hj; rewrite B5; destruct (N.eqb_spec j k); congruence|].
      split; auto. split; auto. split; auto. split; auto. split; [|now rewrite B5, N.eqb_refl]. destruct (did_write pc PC _ _ _ _ _ _ _ _ Hn VS1 DD) as (c' & EQ & LE & _). congruence.
    + destruct E as (-> & ((B1 & B2 & B3 & B4) & B5)). destruct FIN as (F1 & F2 & F3); [exact B5|intros; now rewrite B2|]. split; auto. split; auto. split; auto. split; auto. rewrite B2, D2, A5, N.eqb_refl. auto.
  - destruct E as (-> & E). split; [|discriminate]. intros _. split; auto. now apply still_quiet.
Qed.
(** Seeking: the new offset is the sum (as an unbounded integer) if it is neither negative nor beyond
    the maximum file size; otherwise nothing changes. *)
Theorem C27_lseek x tid fd off w r x' k : preach x -> ready tid x -> pstep x (EvCall tid (PLseek fd off w) r) x' -> live (fst x) fd k ->
  let h := p_h (fst x) k in let n := h_vol h in
  (h_dir h = true -> r = Err EISDIR /\ quiet (fst x) (fst x')) /\
  (h_dir h = false -> exists nl sz bl, vask n (p_v (fst x) n) (CStat (h_ino h)) = Ok (OStat (false, nl, sz, bl)) /\
     let ok from := (0 <= from + off <= Z.of_N (SZMAX n))%Z /\ r = Ok (ROff (from + off)) /\ only_handle (fst x) k (with_off h (Z.to_N (from + off))) (fst x') \/
                    ~ (0 <= from + off <= Z.of_N (SZMAX n))%Z /\ r = Err EINVAL /\ quiet (fst x) (fst x') in
     match w with SEEK_SET => ok 0%Z | SEEK_CUR => ok (Z.of_N (h_off h)) | SEEK_END => ok (Z.of_N sz) | SEEK_OTHER => r = Err EINVAL /\ quiet (fst x) (fst x') end).
Proof.
  intros R RD ST LV h n. destruct (call_ready pc PC _ _ _ _ _ R RD ST eq_refl) as (E & _). destruct E as [(k' & LV' & E)|(NL & _)]; [|now destruct (NL k)].
  assert (k' = k) as ->. { destruct (C26_descriptor pc PC x fd k R (proj1 RD) LV) as (_ & _ & U). apply (U fd k' LV'). auto. }
  cbv zeta in E. fold h in E. fold n in E. destruct (h_dir h).
  - destruct E as (-> & E). split; [|discriminate]. intros _. split; auto. now apply still_quiet.
  - split; [discriminate|]. intros _. destruct E as (nl & sz & bl & ES & E). exists nl, sz, bl. split; auto. cbv zeta.
    assert (X : forall from, (if ((0 <=? from + off) && (from + off <=? Z.of_N (SZMAX n)))%Z then r = Ok (ROff (from + off)) /\ hset (fst x) k (with_off h (Z.to_N (from + off))) (fst x') else r = Err EINVAL /\ still (fst x) (fst x')) ->
       (0 <= from + off <= Z.of_N (SZMAX n))%Z /\ r = Ok (ROff (from + off)) /\ only_handle (fst x) k (with_off h (Z.to_N (from + off))) (fst x') \/
       ~ (0 <= from + off <= Z.of_N (SZMAX n))%Z /\ r = Err EINVAL /\ quiet (fst x) (fst x')).
    { intros from. destruct (Z.leb_spec 0 (from + off)) as [A|A], (Z.leb_spec (from + off) (Z.of_N (SZMAX n))) as [B|B]; cbn [andb]; intros (-> & H).
      - left. split; [lia|]. split; auto. now apply hset_only.
      - right. split; [lia|]. split; auto. now apply still_quiet.
      - right. split; [lia|]. split; auto. now apply still_quiet.
      - right. split; [lia|]. split; auto. now apply still_quiet. }
    destruct w; cbn [seek_from] in E; try (apply X; exact E). destruct E as (-> & E). split; auto. now apply still_quiet.
Qed.
(** Truncation through a descriptor needs write access, and leaves the offset alone. *)
Theorem C27_ftruncate x tid fd size r x' k : preach x -> ready tid x -> pstep x (EvCall tid (PFtruncate fd size) r) x' -> live (fst x) fd k ->
  let h := p_h (fst x) k in
  (h_dir h = true \/ h_wr h = false -> r = Err EBADF /\ quiet (fst x) (fst x')) /\
  (h_dir h = false -> h_wr h = true -> exists o, only_volume (fst x) (h_vol h) (CTruncate (h_ino h) size) o (fst x') /\ r = unit_of o).
Proof.
  intros R RD ST LV h. destruct (call_ready pc PC _ _ _ _ _ R RD ST eq_refl) as (E & _). destruct E as [(k' & LV' & E)|(NL & _)]; [|now destruct (NL k)].
  assert (k' = k) as ->. { destruct (C26_descriptor pc PC x fd k R (proj1 RD) LV) as (_ & _ & U). apply (U fd k' LV'). auto. }
  cbv zeta in E. fold h in E. destruct (h_dir h); [|destruct (h_wr h)]; cbn [negb orb] in E.
  - destruct E as (-> & E). split; [|discriminate]. intros _. split; auto. now apply still_quiet.
  - split; [intros [X|X]; discriminate|]. intros _ _. destruct E as (o & D & ->). exists o. split; auto. now apply did_only.
  - destruct E as (-> & E). split; [|discriminate]. intros _. split; auto. now apply still_quiet.
Qed.
(** No other call touches the offset or the mode of an open handle: it changes only its offset, and only in a
    read, write, seek or directory call on it; or it is closed. *)
Theorem C27_offset x tid c r x' k : preach x -> pstep x (EvCall tid c r) x' -> k < HC -> h_ino (p_h (fst x) k) <> 0 ->
  p_h (fst x') k = p_h (fst x) k \/
  (exists o, p_h (fst x') k = with_off (p_h (fst x) k) o) /\ moves pc c (fst x) k \/
  p_h (fst x') k = freed (p_h (fst x) k) /\ closes pc c (fst x) k.
Proof.
  intros R ST Hk NZ. destruct (call_any pc PC _ _ _ _ _ R ST) as [(s1 & J & CX & E & _)|(J & _)].
  - pose proof (any_quiet pc _ _ _ J) as Q. pose proof Q as (QH & QG & QV). assert (LV : forall fd, live s1 fd k <-> live (fst x) fd k) by (intros; now apply quiet_live).
    destruct (effect_h pc _ _ _ _ _ k E Hk) as [A|[(A & B)|[(A & B)|(A & _)]]].
    + left. now rewrite A, QH.
    + right. left. rewrite QH in A. split; auto. destruct c; cbn in *; auto; now apply LV.
    + right. right. rewrite QH in A. split; auto. destruct c; cbn in *; auto; [now rewrite QH in B|now apply LV].
    + rewrite QH in A. tauto.
  - left. assert (fst x = fst x' \/ joins pc tid (fst x) (fst x')) as J' by (destruct J; auto). apply (any_quiet pc _ _ _ J').
Qed.
End PropPosix2.
