(** Effects of the calls on descriptors and directory streams. *)
From Verif Require Import Base Count FsState FsDir FsSpec FsSpecN FsCoreP2 FsMach FsVolume FsVolumeP FsReach PropFs PropNs Posix PosixSpec PosixWp PosixPath PosixPath2 PosixInv PosixStart PosixCalls PosixCalls2 PosixCalls3 PosixCalls4.
From Coq Require Import ZArith.
Ltac Zify.zify_post_hook ::= idtac.

Definition with_off (h : handle) (o : N) : handle := mkH (h_ino h) (h_vol h) (h_dir h) (h_rd h) (h_wr h) (h_app h) o.
Definition freed (h : handle) : handle := mkH 0 (h_vol h) (h_dir h) (h_rd h) (h_wr h) (h_app h) (h_off h).

Section Calls5.
Variable pc : pcfg.
Hypothesis PC : pcfg_ok pc.
Set Default Proof Using "PC".
Notation SEP := (SEP pc).
Notation NV := (NV pc).
Notation HC := (HC pc).
Notation TC := (TC pc).
Notation MM := (MMASK pc).
Notation TM := (TMASK pc).
Notation TD := (TDEF pc).
Notation comps := (comps SEP).
Notation VOK := (VOK pc).
Notation VInv := (VInv pc).
Notation PInv := (PInv pc).
Notation wp := (wp pc).
Notation vask := (vask pc).
Notation vdir := (vdir pc).
Notation vfile := (vfile pc).
Notation vstep := (vstep pc).
Notation did := (did pc).
Notation Ctx := (Ctx pc).
Notation SZMAX n := (INODE_SIZE_MAX (gs pc n)).

(** [fd] is the descriptor of the open handle [k]. *)
Definition live (s : pst) (fd : Z) (k : N) : Prop :=
  k < HC /\ h_ino (p_h s k) <> 0 /\ fd = fd_of (p_gen s (h_vol (p_h s k))) (h_vol (p_h s k)) k.
Lemma live_fun tid s fd k k' : Ctx tid s -> live s fd k -> live s fd k' -> k = k'.
Proof.
  intros CX (A & B & C) (A' & B' & C'). pose proof (x_init _ _ _ CX) as IN. pose proof (ok_hc _ PC). pose proof (ok_nv _ PC).
  destruct (i_h _ _ (x_inv _ _ _ CX) IN k A B) as (V1 & V2 & _). destruct (i_h _ _ (x_inv _ _ _ CX) IN k' A' B') as (V1' & V2' & _).
  pose proof (gen_mnt pc _ _ _ CX V1 V2). pose proof (gen_mnt pc _ _ _ CX V1' V2').
  assert (E : FildesUnpack fd = FildesUnpack fd) by auto. rewrite C in E at 1. rewrite C' in E. rewrite !unpack_of in E by lia. congruence.
Qed.
(** Decoding an arbitrary 32-bit descriptor. *)
Lemma unpack_inv fd gen vol idx : (0 <= fd < 2147483648)%Z -> FildesUnpack fd = (gen, vol, idx) -> fd = fd_of gen vol idx /\ gen < 2048 /\ vol < 256 /\ idx < 4096.
Proof using.
  intros Hf E. unfold FildesUnpack in E. set (b := Z.to_N fd) in *. assert (EB : fd = Z.of_N b) by (unfold b; lia). assert (Hb : b < 2147483648) by lia. clearbody b. subst fd.
  injection E as <- <- <-. rewrite (land_ones _ 11 2047 eq_refl), (land_ones _ 8 255 eq_refl), (land_ones _ 12 4095 eq_refl), !N.shiftr_div_pow2.
  change (2 ^ 11) with 2048. change (2 ^ 8) with 256. change (2 ^ 12) with 4096.
  pose proof (N.div_mod b 4096 ltac:(lia)) as D1. pose proof (N.mod_lt b 4096 ltac:(lia)) as M1. set (q := b / 4096) in *. set (r := b mod 4096) in *.
  pose proof (N.div_mod q 256 ltac:(lia)) as D2. pose proof (N.mod_lt q 256 ltac:(lia)) as M2. set (q2 := q / 256) in *. set (r2 := q mod 256) in *. clearbody q2 r2 q r.
  assert (HQ : q2 < 2048) by lia. rewrite (N.mod_small q2 2048) by auto. unfold fd_of. split; [lia|]. auto.
Qed.
Definition type_ok (ty : ftype) (dir : bool) : bool := match ty with FTYPE_FILE => negb dir | FTYPE_DIR => dir | FTYPE_EITHER => true end.
Definition type_err (ty : ftype) : errno := match ty with FTYPE_DIR => ENOTDIR | _ => EISDIR end.
Lemma wp_tohandle tid fd ty (Q : res N -> pst -> Prop) s : Ctx tid s -> (fd < 2147483648)%Z ->
  (forall k, live s fd k -> type_ok ty (h_dir (p_h s k)) = true -> handle_ok pc s (p_h s k) -> Q (Ok k) s) ->
  (forall k, live s fd k -> type_ok ty (h_dir (p_h s k)) = false -> Q (Err (type_err ty)) s) ->
  ((forall k, ~ live s fd k) -> Q (Err EBADF) s) -> wp (to_handle pc fd ty) Q s.
Proof.
  intros CX HF H1 H2 H3. unfold to_handle. eapply wp_Act; eauto. cbn [fst snd]. unfold FildesToHandle. pose proof (ok_nv _ PC) as NVB. pose proof (ok_hc _ PC) as HCB.
  pose proof (x_init _ _ _ CX) as IN.
  assert (LG : forall k, live s fd k -> (3 <= fd)%Z /\ FildesUnpack fd = (p_gen s (h_vol (p_h s k)), h_vol (p_h s k), k)).
  { intros k (A & B & C). destruct (i_h _ _ (x_inv _ _ _ CX) IN k A B) as (V1 & V2 & _). pose proof (gen_mnt pc _ _ _ CX V1 V2) as G.
    split; [rewrite C; unfold fd_of; clear - G; lia|]. rewrite C. apply unpack_of; clear - G V1 NVB A HCB; lia. }
  destruct (Z.ltb_spec fd FD_MIN) as [LT|GE]; unfold FD_MIN in *.
  { apply H3. intros k L. destruct (LG k L). clear - LT H. lia. }
  destruct (FildesUnpack fd) as [[gen vol] idx] eqn:EU. destruct (unpack_inv fd gen vol idx ltac:(clear - HF GE; lia) EU) as (EF & BG & BV & BI).
  destruct ((HC <=? idx) || (NV <=? vol) || (h_ino (p_h s idx) =? INODE_INVALID) || negb (h_vol (p_h s idx) =? vol) || negb (p_gen s vol =? gen)) eqn:EC.
  - apply H3. intros k L. destruct (LG k L) as [_ E]. injection E as E1 E2 E3. subst gen vol idx. destruct L as (A & B & C). 
    destruct (i_h _ _ (x_inv _ _ _ CX) IN k A B) as (V1 & _).
    rewrite !N.eqb_refl in EC. cbn [negb] in EC. rewrite !orb_false_r in EC. apply orb_true_iff in EC as [EC|EC]; [apply orb_true_iff in EC as [EC|EC]; apply N.leb_le in EC; lia|].
    apply N.eqb_eq in EC. apply B. exact EC.
  - apply orb_false_iff in EC as [EC E5]. apply orb_false_iff in EC as [EC E4]. apply orb_false_iff in EC as [EC E3]. apply orb_false_iff in EC as [E1 E2].
    apply N.leb_gt in E1, E2. apply N.eqb_neq in E3. apply negb_false_iff, N.eqb_eq in E4, E5.
    assert (L : live s fd idx). { split; auto. split; auto. rewrite E4, E5. auto. }
    assert (HO : handle_ok pc s (p_h s idx)) by (apply (i_h _ _ (x_inv _ _ _ CX) IN); auto).
    specialize (H1 idx L). specialize (H2 idx L). destruct ty; cbn in *; destruct (h_dir (p_h s idx)); cbn in *; auto.
Qed.
(** Setting the offset of a handle. *)
Lemma wp_setoff tid k off (Q : res unit -> pst -> Prop) s : Ctx tid s -> k < HC -> h_ino (p_h s k) <> 0 -> (h_dir (p_h s k) = false -> off <= SZMAX (h_vol (p_h s k))) ->
  (forall s', Ctx tid s' -> hset s k (with_off (p_h s k) off) s' -> p_cur s' = p_cur s -> Q (Ok tt) s') -> wp (set_off k off) Q s.
Proof using.
  intros CX Hk HN HB H. unfold set_off. apply wp_modify; [apply CX|reflexivity|]. apply H; [|apply set_h_hset|reflexivity].
  eapply (hset_Ctx pc tid s); eauto; [|apply set_h_hset|apply CX]. intros _. destruct (i_h _ _ (x_inv _ _ _ CX) (x_init _ _ _ CX) k Hk HN) as (A & B & C).
  split; auto. split; auto. cbn. destruct (h_dir (p_h s k)) eqn:E; auto. split; [tauto|]. auto.
Qed.
Lemma wp_closeh tid k (Q : res unit -> pst -> Prop) s : Ctx tid s -> k < HC ->
  (forall s', Ctx tid s' -> hset s k (freed (p_h s k)) s' -> p_cur s' = p_cur s -> Q (Ok tt) s') -> wp (close_h k) Q s.
Proof using.
  intros CX Hk H. unfold close_h. apply wp_modify; [apply CX|reflexivity|]. apply H; [|apply set_h_hset|reflexivity].
  eapply (hset_Ctx pc tid s); eauto; [|apply set_h_hset|apply CX]. intros X. exfalso. apply X. reflexivity.
Qed.
Lemma did_transact s n r s' : n < NV -> VOK n (p_v s n) -> v_mnt (p_v s n) = true -> s_ro (v_s (p_v s n)) = false -> did s n CTransact r s' -> r = Ok OUnit.
Proof.
  intros Hn HV MN RO DD. destruct (VOK_W pc PC _ _ Hn HV MN) as (W & C & SA & _). rewrite RO in SA.
  pose proof (step_sim _ (ok_g _ PC n Hn) _ MM TM TD _ _ _ _ SA (step_at _ _ _ _ _ _ DD)) as (a' & AS & _). inversion AS; subst; auto; discriminate.
Qed.

(** ** close *)
(** An optional transaction point. *)
Definition maybe_transact (b : bool) (s : pst) (n : N) (s' : pst) : Prop := if b then did s n CTransact (Ok OUnit) s' else still s s'.
Definition on_fd (s : pst) (fd : Z) (r : res pout) (s' : pst) (P : N -> Prop) : Prop :=
  (exists k, live s fd k /\ P k) \/ (forall k, ~ live s fd k) /\ r = Err EBADF /\ still s s'.
Definition close_post (fd : Z) (s : pst) (r : res pout) (s' : pst) : Prop :=
  on_fd s fd r s' (fun k => let n := h_vol (p_h s k) in
    r = Ok RUnit /\ exists s1, maybe_transact (negb (s_ro (v_s (p_v s n))) && has (v_mask (p_v s n)) T_CLOSE) s n s1 /\ hset s1 k (freed (p_h s k)) s').
Lemma do_close tid fd s : Ctx tid s -> (fd < 2147483648)%Z -> wp (red_close pc fd) (fun r s' => Ctx tid s' /\ close_post fd s r s') s.
Proof.
  intros CX HF. unfold red_close, FildesClose. apply wp_bind. apply wp_bind. eapply wp_tohandle; eauto.
  3: { intros NL. split; auto. right. split; auto. split; auto. apply still_refl. }
  2: { intros k _ X. discriminate. }
  intros k L _ (V1 & V2 & _). pose proof L as (Hk & HN & _). apply wp_bind. eapply wp_Get; eauto. apply wp_bind. eapply wp_SetCur; eauto. intros s1 CX1 ST1 CU1.
  set (n := h_vol (p_h s k)) in *. pose proof ST1 as ((R1 & R2 & R3 & R4) & VV1). apply wp_bind. eapply wp_Get; eauto. unfold cur_vol. rewrite CU1, VV1. apply wp_bind.
  assert (FIN : forall s2, Ctx tid s2 -> p_h s2 k = p_h s k -> maybe_transact (negb (s_ro (v_s (p_v s n))) && has (v_mask (p_v s n)) T_CLOSE) s n s2 ->
     wp (close_h k) (fun r s' => match r with Ok _ => wp (ret RUnit) (fun r s' => Ctx tid s' /\ close_post fd s r s') s' | Err e => Ctx tid s' /\ close_post fd s (Err e) s' end) s2).
  { intros s2 CX2 HH MT. eapply wp_closeh; eauto. intros s3 CX3 HS _. apply wp_ret. split; auto. left. exists k. split; auto. fold n. split; auto. exists s2. rewrite HH in HS. auto. }
  destruct (s_ro (v_s (p_v s n))) eqn:ERO; cbn [negb andb] in FIN.
  - apply wp_ret. apply FIN; auto. now rewrite R2.
  - apply wp_bind. eapply wp_maskget; eauto. intros s2 CX2 SM2. rewrite CU1, VV1, V2. pose proof SM2 as ((Q1 & Q2 & Q3 & Q4) & CU2 & VV2).
    assert (ST2 : still s s2) by (eapply still_trans; [exact ST1|now apply same_still]). pose proof ST2 as (_ & VVV2).
    destruct (has (v_mask (p_v s n)) T_CLOSE).
    + eapply wp_do_unit; eauto; [exact I|exact I|apply harmless_easy; [auto|discriminate|discriminate|discriminate]|]. intros o s3 CX3 DD CU3. rewrite CU2, CU1 in DD.
      assert (o = Ok OUnit). { eapply (did_transact s2 n); eauto; [apply CX2; auto|rewrite VVV2; auto|rewrite VVV2; auto]. } subst o.
      pose proof (did_still _ _ _ _ _ _ _ ST2 DD) as DD0. apply FIN; auto. destruct DD0 as ((_ & E & _) & _). now rewrite E.
    + apply wp_ret. apply FIN; auto. now rewrite Q2, R2.
Qed.
(** ** fsync *)
Definition fsync_post (fd : Z) (s : pst) (r : res pout) (s' : pst) : Prop :=
  on_fd s fd r s' (fun k => let n := h_vol (p_h s k) in
    if has (v_mask (p_v s n)) T_FSYNC then exists o, did s n CTransact o s' /\ r = unit_of o /\ (s_ro (v_s (p_v s n)) = false -> o = Ok OUnit) else still s s' /\ r = Ok RUnit).
Lemma do_fsync tid fd s : Ctx tid s -> (fd < 2147483648)%Z -> wp (red_fsync pc fd) (fun r s' => Ctx tid s' /\ fsync_post fd s r s') s.
Proof.
  intros CX HF. unfold red_fsync. apply wp_bind. eapply wp_tohandle; eauto.
  3: { intros NL. split; auto. right. split; auto. split; auto. apply still_refl. }
  2: { intros k _ X. discriminate. }
  intros k L _ (V1 & V2 & _). pose proof L as (Hk & HN & _). apply wp_bind. eapply wp_Get; eauto. apply wp_bind. eapply wp_SetCur; eauto. intros s1 CX1 ST1 CU1.
  set (n := h_vol (p_h s k)) in *. pose proof ST1 as ((R1 & R2 & R3 & R4) & VV1).
  apply wp_bind. eapply wp_maskget; eauto. intros s2 CX2 SM2. rewrite CU1, VV1, V2. pose proof SM2 as ((Q1 & Q2 & Q3 & Q4) & CU2 & VV2).
  assert (ST2 : still s s2) by (eapply still_trans; [exact ST1|now apply same_still]). pose proof ST2 as (_ & VVV2).
  apply wp_bind. destruct (has (v_mask (p_v s n)) T_FSYNC) eqn:EM.
  - eapply wp_do_unit; eauto; [exact I|exact I|apply harmless_easy; [auto|discriminate|discriminate|discriminate]|]. intros o s3 CX3 DD CU3. rewrite CU2, CU1 in DD.
    assert (XX : s_ro (v_s (p_v s n)) = false -> o = Ok OUnit). { intros RO. eapply (did_transact s2 n); eauto; [apply CX2; auto|rewrite VVV2; auto|rewrite VVV2; auto]. }
    pose proof (did_still _ _ _ _ _ _ _ ST2 DD) as DD0.
    assert (P : Ctx tid s3 /\ fsync_post fd s (unit_of o) s3). { split; auto. left. exists k. split; auto. cbn zeta. fold n. rewrite EM. exists o. auto. }
    destruct o; [apply wp_ret|]; exact P.
  - apply wp_ret. apply wp_ret. split; auto. left. exists k. split; auto. cbn zeta. fold n. rewrite EM. auto.
Qed.
(** ** read *)
Definition read_post (fd : Z) (len : N) (s : pst) (r : res pout) (s' : pst) : Prop :=
  on_fd s fd r s' (fun k => let h := p_h s k in
    if h_dir h then r = Err EISDIR /\ still s s' else if negb (h_rd h) then r = Err EBADF /\ still s s' else
    exists c f, vask (h_vol h) (p_v s (h_vol h)) (CRead (h_ino h) (h_off h) len) = Ok (ORead (c, f)) /\ r = Ok (RBytes c f) /\ hset s k (with_off h (h_off h + c)) s').
Lemma wp_readcall tid c (Q : res out -> pst -> Prop) s : Ctx tid s -> legal c -> reads c = true -> (forall s', Ctx tid s' -> same s s' -> Q (vask (p_cur s) (p_v s (p_cur s)) c) s') -> wp (core pc c) Q s.
Proof. intros CX LG RD H. apply (wp_read pc PC); auto; try apply CX. intros s' V SM. apply H; auto. eapply same_Ctx; eauto. Qed.
Lemma read_file n v W C ro mask i st ln : n < NV -> vsim pc n v (Mnt W C ro mask) -> vfile n v i ->
  exists c f sz, vask n v (CRead i st ln) = Ok (ORead (c, f)) /\ c = N.min ln (sz - st) /\ sz <= SZMAX n.
Proof.
  intros Hn SA VF. pose proof (vask_ok pc PC n v W C ro mask (CRead i st ln) Hn SA eq_refl I) as RD. destruct (proj1 (vfile_W pc PC n v W C _ _ i Hn SA) VF) as (nl & sz & b & EW).
  destruct (Sim_zero _ (ok_g _ PC n Hn) _ MM TM TD _ _ _ _ _ _ _ _ _ SA EW) as (SZ & _). cbn in RD.
  destruct (vask n v (CRead i st ln)) as [o|e].
  - destruct o; try contradiction. destruct x as [c f]. destruct RD as (nl' & sz' & b' & E & -> & _). rewrite EW in E. injection E as <- <- <-. eauto 7.
  - destruct RD as [(_ & X)|(_ & p & sl & X)]; congruence.
Qed.
Lemma do_read tid fd len s : Ctx tid s -> (fd < 2147483648)%Z -> wp (red_read pc fd len) (fun r s' => Ctx tid s' /\ read_post fd len s r s') s.
Proof.
  intros CX HF. unfold red_read. apply wp_bind. eapply wp_tohandle; eauto.
  3: { intros NL. split; auto. right. split; auto. split; auto. apply still_refl. }
  2: { intros k L X. cbn in X. split; auto. left. exists k. split; auto. cbn zeta. destruct (h_dir (p_h s k)); [|discriminate]. split; auto. apply still_refl. }
  intros k L DD (V1 & V2 & V3). cbn in DD. apply negb_true_iff in DD. rewrite DD in V3. destruct V3 as [V3 V4]. pose proof L as (Hk & HN & _). apply wp_bind. eapply wp_Get; eauto. apply wp_bind.
  destruct (h_rd (p_h s k)) eqn:ER; cbn [check].
  2: { apply wp_fail. split; auto. left. exists k. split; auto. cbn zeta. rewrite DD, ER. cbn. split; auto. apply still_refl. }
  apply wp_ret. apply wp_bind. eapply wp_SetCur; eauto. intros s1 CX1 ST1 CU1. set (n := h_vol (p_h s k)) in *. pose proof ST1 as ((R1 & R2 & R3 & R4) & VV1).
  destruct (VOK_W pc PC _ _ V1 (x_v _ _ _ CX _ V1) V2) as (W & C & SA & _). destruct (read_file n _ _ _ _ _ (h_ino (p_h s k)) (h_off (p_h s k)) len V1 SA V3) as (c & f & sz & EA & EC & SZ).
  apply wp_bind. eapply wp_readcall; eauto; [exact I|]. intros s2 CX2 SM2. rewrite CU1, VV1, EA. pose proof SM2 as ((Q1 & Q2 & Q3 & Q4) & CU2 & VV2).
  assert (ST2 : still s s2) by (eapply still_trans; [exact ST1|now apply same_still]). assert (EH : p_h s2 k = p_h s k) by congruence.
  apply wp_bind. eapply wp_setoff; eauto; [congruence| |].
  - intros _. rewrite EH. clear - EC SZ V4. subst c. change (h_vol (p_h s k)) with n. lia.
  - intros s3 CX3 HS _. apply wp_ret. split; auto. left. exists k. split; auto. cbn zeta. rewrite DD, ER. cbn [negb]. exists c, f. split; auto. split; auto. rewrite EH in HS. eapply still_hset; eauto.
Qed.
(** ** write *)
Definition write_post (fd : Z) (len : N) (src : N -> N) (s : pst) (r : res pout) (s' : pst) : Prop :=
  on_fd s fd r s' (fun k => let h := p_h s k in let n := h_vol h in
    if h_dir h || negb (h_wr h) then r = Err EBADF /\ still s s' else
    exists nl sz bl, vask n (p_v s n) (CStat (h_ino h)) = Ok (OStat (false, nl, sz, bl)) /\
    let off := if h_app h then sz else h_off h in
    exists s1 o s2, hset s k (with_off h off) s1 /\ did s1 n (CWrite (h_ino h) off len src) o s2 /\
      match o with
      | Ok (ONum c) => r = Ok (RNum c) /\ hset s2 k (with_off h (off + c)) s'
      | Ok _ => False
      | Err e => r = Err e /\ still s2 s'
      end).
Lemma did_write s n i st ln src o s' : n < NV -> VOK n (p_v s n) -> did s n (CWrite i st ln src) (Ok o) s' -> exists c, o = ONum c /\ c <= ln /\ (st <= SZMAX n -> st + c <= SZMAX n).
Proof.
  intros Hn (_ & a & SA & _) DD. pose proof (step_sim _ (ok_g _ PC n Hn) _ MM TM TD _ _ _ _ SA (step_at _ _ _ _ _ _ DD)) as (a' & AS & SA').
  inversion AS; subst; try discriminate. match goal with X : op_ok _ _ _ _ _ _ _ |- _ => destruct X as (c & -> & X); rename X into HX end. exists c. split; auto.
  destruct (N.eqb_spec ln 0) as [->|NZ]; [destruct HX as (-> & _)|destruct HX as (HX & _)]; lia.
Qed.
Lemma with_off_same h : with_off h (h_off h) = h. Proof using. destruct h; reflexivity. Qed.
Lemma do_write tid fd len src s : Ctx tid s -> (fd < 2147483648)%Z -> wp (red_write pc fd len src) (fun r s' => Ctx tid s' /\ write_post fd len src s r s') s.
Proof.
  intros CX HF. unfold red_write. apply wp_bind. unfold eisdir_ebadf. apply wp_catch. eapply wp_tohandle; eauto.
  3: { intros NL. cbn. split; auto. right. split; auto. split; auto. apply still_refl. }
  2: { intros k L X. cbn in X |- *. split; auto. left. exists k. split; auto. cbn zeta. destruct (h_dir (p_h s k)); [|discriminate]. split; auto. apply still_refl. }
  intros k L DD (V1 & V2 & V3). cbn in DD. apply negb_true_iff in DD. rewrite DD in V3. destruct V3 as [V3 V4]. pose proof L as (Hk & HN & _). change (wp (BRet (Ok k))) with (wp (ret k)). apply wp_ret.
  apply wp_bind. eapply wp_Get; eauto. apply wp_bind.
  destruct (h_wr (p_h s k)) eqn:ER; cbn [check].
  2: { apply wp_fail. split; auto. left. exists k. split; auto. cbn zeta. rewrite DD, ER. cbn. split; auto. apply still_refl. }
  apply wp_ret. apply wp_bind. eapply wp_SetCur; eauto. intros s1 CX1 ST1 CU1. set (n := h_vol (p_h s k)) in *. pose proof ST1 as ((R1 & R2 & R3 & R4) & VV1).
  destruct V3 as (nl & sz & bl & ES). change (ask (gs pc n) (ATOM pc n) MM TM) with (vask n) in ES.
  destruct (VOK_W pc PC _ _ V1 (x_v _ _ _ CX _ V1) V2) as (W & C & SA & _).
  assert (SZ : sz <= SZMAX n).
  { destruct (stat_W _ (ok_g _ PC n V1) _ MM TM TD _ _ _ _ _ SA _ _ _ _ ES) as (b & EW). apply (Sim_zero _ (ok_g _ PC n V1) _ MM TM TD _ _ _ _ _ _ _ _ _ SA EW). }
  set (off := if h_app (p_h s k) then sz else h_off (p_h s k)).
  assert (HO : off <= SZMAX n) by (unfold off; destruct (h_app (p_h s k)); auto).
  assert (FIN : forall s2, Ctx tid s2 -> hset s k (with_off (p_h s k) off) s2 -> p_cur s2 = n ->
     wp (bind (get_h k) (fun h' => bind (core_num pc (CWrite (h_ino h') (h_off h') len src)) (fun c => bind (set_off k (h_off h' + c)) (fun _ => ret (RNum c)))))
       (fun r s' => Ctx tid s' /\ write_post fd len src s r s') s2).
  { intros s2 CX2 HS CU2. assert (EH : p_h s2 k = with_off (p_h s k) off) by (destruct HS as (_ & _ & _ & _ & E); rewrite E, N.eqb_refl; auto).
    apply wp_bind. eapply wp_Get; eauto. rewrite EH. cbn [with_off h_ino h_off]. apply wp_bind.
    eapply wp_do_num; eauto; [exact I|exact I|apply harmless_easy; [auto|discriminate|discriminate|discriminate]|]. intros o s3 CX3 DI CU3. rewrite CU2 in DI.
    assert (EH3 : p_h s3 k = with_off (p_h s k) off) by (destruct DI as ((_ & E & _) & _); congruence).
    assert (MK : forall R s', match o with Ok (ONum c) => R = Ok (RNum c) /\ hset s3 k (with_off (p_h s k) (off + c)) s' | Ok _ => False | Err e => R = Err e /\ still s3 s' end -> write_post fd len src s R s').
    { intros R s' X. left. exists k. split; auto. cbn zeta. rewrite DD, ER. cbn [negb orb]. exists nl, sz, bl. split; auto. exists s2, o, s3. split; auto. }
    destruct o as [o|e].
    - destruct (did_write s2 n _ _ _ _ _ _ V1 (x_v _ _ _ CX2 _ V1) DI) as (c & -> & _ & B). eapply wp_bind. eapply wp_setoff; eauto.
      + rewrite EH3. exact HN. + rewrite EH3. intros _. apply B. auto.
      + intros s4 CX4 HS4 _. apply wp_ret. split; auto. apply MK. split; auto. rewrite EH3 in HS4. exact HS4.
    - split; auto. apply MK. split; auto. apply still_refl. }
  apply wp_bind. destruct (h_app (p_h s k)) eqn:EA.
  - apply wp_bind. eapply wp_stat; eauto. intros s2 CX2 SM2. rewrite CU1, VV1. unfold vstat4. rewrite ES. cbn [st_size fst snd]. pose proof SM2 as ((Q1 & Q2 & Q3 & Q4) & CU2 & VV2).
    assert (ST2 : still s s2) by (eapply still_trans; [exact ST1|now apply same_still]). assert (EH : p_h s2 k = p_h s k) by congruence.
    eapply wp_setoff; eauto; [congruence|rewrite EH; auto|]. intros s3 CX3 HS CU3. apply FIN; auto; [rewrite EH in HS; eapply still_hset; eauto|congruence].
  - apply wp_ret. apply FIN; auto. unfold off. rewrite with_off_same. eapply still_hset; [exact ST1|]. split; [auto|]. split; [auto|]. split; [auto|]. split; [auto|].
    intros j. destruct (N.eqb_spec j k) as [->|]; congruence.
Qed.
(** ** lseek *)
Definition seek_from (w : whence) (h : handle) (sz : N) : option Z :=
  match w with SEEK_SET => Some 0%Z | SEEK_CUR => Some (Z.of_N (h_off h)) | SEEK_END => Some (Z.of_N sz) | SEEK_OTHER => None end.
Definition lseek_post (fd off : Z) (w : whence) (s : pst) (r : res pout) (s' : pst) : Prop :=
  on_fd s fd r s' (fun k => let h := p_h s k in let n := h_vol h in
    if h_dir h then r = Err EISDIR /\ still s s' else
    exists nl sz bl, vask n (p_v s n) (CStat (h_ino h)) = Ok (OStat (false, nl, sz, bl)) /\
    match seek_from w h sz with
    | None => r = Err EINVAL /\ still s s'
    | Some from => if ((0 <=? from + off) && (from + off <=? Z.of_N (SZMAX n)))%Z then r = Ok (ROff (from + off)) /\ hset s k (with_off h (Z.to_N (from + off))) s'
                   else r = Err EINVAL /\ still s s'
    end).
Lemma do_lseek tid fd off w s : Ctx tid s -> (fd < 2147483648)%Z -> (forall n, n < NV -> (Z.of_N (SZMAX n) <= INT64_MAX)%Z) ->
  wp (red_lseek pc fd off w) (fun r s' => Ctx tid s' /\ lseek_post fd off w s r s') s.
Proof.
  intros CX HF HM. unfold red_lseek. apply wp_bind. eapply wp_tohandle; eauto.
  3: { intros NL. split; auto. right. split; auto. split; auto. apply still_refl. }
  2: { intros k L X. cbn in X. split; auto. left. exists k. split; auto. cbn zeta. destruct (h_dir (p_h s k)); [|discriminate]. split; auto. apply still_refl. }
  intros k L DD (V1 & V2 & V3). cbn in DD. apply negb_true_iff in DD. rewrite DD in V3. destruct V3 as [V3 V4]. pose proof L as (Hk & HN & _). apply wp_bind. eapply wp_Get; eauto. apply wp_bind.
  eapply wp_SetCur; eauto. intros s1 CX1 ST1 CU1. set (n := h_vol (p_h s k)) in *. pose proof ST1 as ((R1 & R2 & R3 & R4) & VV1). specialize (HM n V1).
  destruct V3 as (nl & sz & bl & ES). change (ask (gs pc n) (ATOM pc n) MM TM) with (vask n) in ES.
  assert (MK : forall R s', match seek_from w (p_h s k) sz with
    | None => R = Err EINVAL /\ still s s'
    | Some from => if ((0 <=? from + off) && (from + off <=? Z.of_N (SZMAX n)))%Z then R = Ok (ROff (from + off)) /\ hset s k (with_off (p_h s k) (Z.to_N (from + off))) s'
                   else R = Err EINVAL /\ still s s' end -> lseek_post fd off w s R s').
  { intros R s' X. left. exists k. split; auto. cbn zeta. rewrite DD. exists nl, sz, bl. split; auto. }
  assert (FIN : forall from s2, seek_from w (p_h s k) sz = Some from -> Ctx tid s2 -> still s s2 -> p_cur s2 = n -> 
    wp (bind (get p_cur) (fun c => if ((0 <? off) && (INT64_MAX <? from + off))%Z then fail EINVAL else
       if ((from + off <? 0) || (Z.of_N (SZMAX c) <? from + off))%Z then fail EINVAL else bind (set_off k (Z.to_N (from + off))) (fun _ => ret (ROff (from + off)))))
      (fun r s' => Ctx tid s' /\ lseek_post fd off w s r s') s2).
  { intros from s2 EF CX2 ST2 CU2. rewrite EF in MK. apply wp_bind. eapply wp_Get; eauto. rewrite CU2. pose proof ST2 as ((Q1 & Q2 & Q3 & Q4) & VV2).
    destruct ((0 <=? from + off) && (from + off <=? Z.of_N (SZMAX n)))%Z eqn:EB.
    - apply andb_true_iff in EB as [E1 E2]. apply Z.leb_le in E1, E2.
      replace ((0 <? off) && (INT64_MAX <? from + off))%Z with false by (symmetry; apply andb_false_iff; right; apply Z.ltb_ge; clear - E2 HM; lia).
      replace (from + off <? 0)%Z with false by (symmetry; apply Z.ltb_ge; auto). replace (Z.of_N (SZMAX n) <? from + off)%Z with false by (symmetry; apply Z.ltb_ge; auto). cbn [orb].
      apply wp_bind. eapply wp_setoff; eauto; [congruence|rewrite Q2; intros _; fold n; clear - E1 E2; lia|]. intros s3 CX3 HS _. apply wp_ret. split; auto. apply MK. split; auto. rewrite Q2 in HS. eapply still_hset; eauto.
    - destruct ((0 <? off) && (INT64_MAX <? from + off))%Z; [apply wp_fail; split; auto|].
      replace ((from + off <? 0) || (Z.of_N (SZMAX n) <? from + off))%Z with true. { apply wp_fail; split; auto. }
      symmetry. apply orb_true_iff. apply andb_false_iff in EB as [EB|EB]; apply Z.leb_gt in EB; [left|right]; apply Z.ltb_lt; auto. }
  apply wp_bind. destruct w; cbn [seek_from] in FIN, MK.
  - apply wp_ret. apply (FIN 0%Z s1); auto.
  - apply wp_ret. apply (FIN (Z.of_N (h_off (p_h s k))) s1); auto.
  - apply wp_bind. eapply wp_stat; eauto. intros s2 CX2 SM2. rewrite CU1, VV1. unfold vstat4. rewrite ES. cbn [st_size fst snd]. pose proof SM2 as ((Q1 & Q2 & Q3 & Q4) & CU2 & VV2).
    apply wp_ret. apply (FIN (Z.of_N sz) s2); auto; [|congruence]. eapply still_trans; [exact ST1|now apply same_still].
  - apply wp_fail. split; auto.
Qed.
(** ** ftruncate *)
Definition ftruncate_post (fd : Z) (size : N) (s : pst) (r : res pout) (s' : pst) : Prop :=
  on_fd s fd r s' (fun k => let h := p_h s k in
    if h_dir h || negb (h_wr h) then r = Err EBADF /\ still s s' else exists o, did s (h_vol h) (CTruncate (h_ino h) size) o s' /\ r = unit_of o).
Lemma do_ftruncate tid fd size s : Ctx tid s -> (fd < 2147483648)%Z -> wp (red_ftruncate pc fd size) (fun r s' => Ctx tid s' /\ ftruncate_post fd size s r s') s.
Proof.
  intros CX HF. unfold red_ftruncate. apply wp_bind. unfold eisdir_ebadf. apply wp_catch. eapply wp_tohandle; eauto.
  3: { intros NL. cbn. split; auto. right. split; auto. split; auto. apply still_refl. }
  2: { intros k L X. cbn in X |- *. split; auto. left. exists k. split; auto. cbn zeta. destruct (h_dir (p_h s k)); [|discriminate]. split; auto. apply still_refl. }
  intros k L DD (V1 & V2 & V3). cbn in DD. apply negb_true_iff in DD. pose proof L as (Hk & HN & _). change (wp (BRet (Ok k))) with (wp (ret k)). apply wp_ret.
  apply wp_bind. eapply wp_Get; eauto. apply wp_bind.
  destruct (h_wr (p_h s k)) eqn:ER; cbn [check].
  2: { apply wp_fail. split; auto. left. exists k. split; auto. cbn zeta. rewrite DD, ER. cbn. split; auto. apply still_refl. }
  apply wp_ret. apply wp_bind. eapply wp_SetCur; eauto. intros s1 CX1 ST1 CU1. apply wp_bind.
  eapply wp_do_unit; eauto; [exact I|exact I|apply harmless_easy; [auto|discriminate|discriminate|discriminate]|]. intros o s3 CX3 DI CU3. rewrite CU1 in DI.
  assert (P : Ctx tid s3 /\ ftruncate_post fd size s (unit_of o) s3).
  { split; auto. left. exists k. split; auto. cbn zeta. rewrite DD, ER. cbn. exists o. split; auto. eapply did_still; eauto. }
  destruct o; [apply wp_ret|]; exact P.
Qed.
(** ** fstat *)
Definition fstat_post (fd : Z) (s : pst) (r : res pout) (s' : pst) : Prop :=
  on_fd s fd r s' (fun k => let h := p_h s k in still s s' /\ exists x, vask (h_vol h) (p_v s (h_vol h)) (CStat (h_ino h)) = Ok (OStat x) /\ r = Ok (RStat x) /\ st_dir x = h_dir h).
Lemma do_fstat tid fd s : Ctx tid s -> (fd < 2147483648)%Z -> wp (red_fstat pc fd) (fun r s' => Ctx tid s' /\ fstat_post fd s r s') s.
Proof.
  intros CX HF. unfold red_fstat. apply wp_bind. eapply wp_tohandle; eauto.
  3: { intros NL. split; auto. right. split; auto. split; auto. apply still_refl. }
  2: { intros k _ X. discriminate. }
  intros k L _ (V1 & V2 & V3). pose proof L as (Hk & HN & _). apply wp_bind. eapply wp_Get; eauto. apply wp_bind. eapply wp_SetCur; eauto. intros s1 CX1 ST1 CU1.
  pose proof ST1 as (_ & VV1). apply wp_bind. eapply wp_stat; eauto. intros s2 CX2 SM2. rewrite CU1, VV1.
  assert (ST2 : still s s2) by (eapply still_trans; [exact ST1|now apply same_still]).
  assert (EX : exists x, vask (h_vol (p_h s k)) (p_v s (h_vol (p_h s k))) (CStat (h_ino (p_h s k))) = Ok (OStat x) /\ st_dir x = h_dir (p_h s k)).
  { destruct (h_dir (p_h s k)); [destruct V3 as (a & b & c & E)|destruct V3 as [(a & b & c & E) _]]; (eexists; split; [exact E|reflexivity]). }
  destruct EX as (x & EX & EY). unfold vstat4. rewrite EX. apply wp_ret. split; auto. left. exists k. split; auto. cbn zeta. split; auto. exists x. auto.
Qed.
(** ** Directory streams *)
(** An open directory. *)
Definition dlive (s : pst) (d : N) : Prop := d < HC /\ h_ino (p_h s d) <> 0 /\ h_dir (p_h s d) = true.
Lemma dvalid tid s d : Ctx tid s -> (DirStreamIsValid pc d s = true <-> dlive s d).
Proof using.
  intros CX. unfold DirStreamIsValid, dlive. rewrite !andb_true_iff, !N.ltb_lt, negb_true_iff, N.eqb_neq. split; [tauto|]. intros (A & B & C). repeat split; auto.
  destruct (i_h _ _ (x_inv _ _ _ CX) (x_init _ _ _ CX) d A B) as (D & _). auto.
Qed.
Definition readdir_post (d : N) (s : pst) (r : res pout) (s' : pst) : Prop :=
  let h := p_h s d in let n := h_vol h in
  dlive s d /\ (exists e, vask n (p_v s n) (CDirRead (h_ino h) (h_off h)) = Ok (OEnt e) /\ hset s d (with_off h (snd e)) s' /\
     match fst e with
     | None => r = Ok (REnt None)
     | Some (nm, i) => exists x, vask n (p_v s n) (CStat i) = Ok (OStat x) /\ r = Ok (REnt (Some (nm, i, x)))
     end) \/ ~ dlive s d /\ r = Err EBADF /\ still s s'.
Lemma dirread_dir n v W C ro mask i k : n < NV -> vsim pc n v (Mnt W C ro mask) -> vdir n v i ->
  exists e, vask n v (CDirRead i k) = Ok (OEnt e) /\ match fst e with Some (nm, j) => exists x, vask n v (CStat j) = Ok (OStat x) | None => True end.
Proof.
  intros Hn SA VD. pose proof (vask_ok pc PC n v W C ro mask (CDirRead i k) Hn SA eq_refl I) as RD. destruct (proj1 (vdir_W pc PC n v W C _ _ i Hn SA) VD) as (p & sl & EW). cbn in RD.
  destruct (vask n v (CDirRead i k)) as [o|e].
  - destruct o; try contradiction. exists x. split; auto. destruct x as [[[nm j]|] k']; cbn; auto. destruct RD as (l & _ & _ & EN & _).
    pose proof (wf_ent _ (vWF pc PC _ _ _ _ _ _ Hn SA) _ _ _ _ EN) as WE. destruct WE as (EX & _).
    pose proof (vask_ok pc PC n v W C ro mask (CStat j) Hn SA eq_refl I) as RS. cbn in RS. destruct (vask n v (CStat j)) as [o|e]; [destruct o; try contradiction; eauto|]. destruct RS as (_ & X). tauto.
  - destruct RD as [(_ & X)|(_ & a & b & c & X)]; congruence.
Qed.
Lemma do_readdir tid d s : Ctx tid s -> wp (red_readdir pc d) (fun r s' => Ctx tid s' /\ readdir_post d s r s') s.
Proof.
  intros CX. unfold red_readdir. pose proof (dvalid tid s d CX) as DV. apply wp_bind. eapply wp_Act; eauto. cbn [fst snd]. destruct (DirStreamIsValid pc d s).
  2: { split; auto. right. split; [intros X; apply DV in X; discriminate|]. split; auto. apply still_refl. }
  pose proof (proj1 DV eq_refl) as DL. pose proof DL as (Hd & HN & HD). destruct (i_h _ _ (x_inv _ _ _ CX) (x_init _ _ _ CX) d Hd HN) as (V1 & V2 & V3). rewrite HD in V3.
  apply wp_bind. eapply wp_SetCur; eauto. intros s1 CX1 ST1 CU1. pose proof ST1 as ((R1 & R2 & R3 & R4) & VV1). set (n := h_vol (p_h s d)) in *.
  destruct (VOK_W pc PC _ _ V1 (x_v _ _ _ CX _ V1) V2) as (W & C & SA & _). destruct (dirread_dir n _ _ _ _ _ (h_ino (p_h s d)) (h_off (p_h s d)) V1 SA V3) as (e & EA & EE).
  apply wp_bind. unfold core_dirread. apply wp_bind. eapply wp_readcall; eauto; [exact I|]. intros s2 CX2 SM2. rewrite CU1, VV1, EA. apply wp_ret. pose proof SM2 as ((Q1 & Q2 & Q3 & Q4) & CU2 & VV2).
  assert (ST2 : still s s2) by (eapply still_trans; [exact ST1|now apply same_still]). assert (EH : p_h s2 d = p_h s d) by congruence.
  apply wp_bind. eapply wp_setoff; eauto; [congruence|rewrite EH; congruence|]. intros s3 CX3 HS CU3. rewrite EH in HS. pose proof (still_hset _ _ _ _ _ ST2 HS) as HS0.
  assert (MK : forall R s', hset s d (with_off (p_h s d) (snd e)) s' -> match fst e with
     | None => R = Ok (REnt None)
     | Some (nm, i) => exists x, vask n (p_v s n) (CStat i) = Ok (OStat x) /\ R = Ok (REnt (Some (nm, i, x))) end -> readdir_post d s R s').
  { intros R s' A B. left. split; auto. exists e. auto. }
  destruct (fst e) as [[nm i]|]; [|apply wp_ret; split; auto]. destruct EE as (x & EX). apply wp_bind. eapply wp_stat; eauto. intros s4 CX4 SM4.
  assert (VV3 : p_v s3 n = p_v s n) by (destruct HS0 as (_ & _ & _ & E & _); apply E). rewrite CU3, CU2, CU1, VV3. unfold vstat4. rewrite EX. apply wp_ret. split; auto. apply MK; eauto.
  destruct SM4 as ((S1 & S2 & S3 & S4) & _ & VV4). destruct HS0 as (A1 & A2 & A3 & A4 & A5). split; [congruence|]. split; [congruence|]. split; [congruence|]. split; [intros q; rewrite VV4; auto|].
  intros q. rewrite S2. auto.
Qed.
Definition rewinddir_post (d : N) (s : pst) (r : res pout) (s' : pst) : Prop :=
  r = Ok RUnit /\ (dlive s d /\ hset s d (with_off (p_h s d) 0) s' \/ ~ dlive s d /\ still s s').
Lemma do_rewinddir tid d s : Ctx tid s -> wp (red_rewinddir pc d) (fun r s' => Ctx tid s' /\ rewinddir_post d s r s') s.
Proof.
  intros CX. unfold red_rewinddir. pose proof (dvalid tid s d CX) as DV. apply wp_bind. eapply wp_Get; eauto. apply wp_bind. destruct (DirStreamIsValid pc d s).
  - pose proof (proj1 DV eq_refl) as DL. pose proof DL as (Hd & HN & HD). eapply wp_setoff; eauto; [congruence|]. intros s1 CX1 HS _. apply wp_ret. split; auto. split; auto.
  - apply wp_ret. apply wp_ret. split; auto. split; auto. right. split; [intros X; apply DV in X; discriminate|]. apply still_refl.
Qed.
Definition closedir_post (d : N) (s : pst) (r : res pout) (s' : pst) : Prop :=
  dlive s d /\ r = Ok RUnit /\ hset s d (freed (p_h s d)) s' \/ ~ dlive s d /\ r = Err EBADF /\ still s s'.
Lemma do_closedir tid d s : Ctx tid s -> wp (red_closedir pc d) (fun r s' => Ctx tid s' /\ closedir_post d s r s') s.
Proof.
  intros CX. unfold red_closedir. pose proof (dvalid tid s d CX) as DV. apply wp_bind. eapply wp_Get; eauto. apply wp_bind. destruct (DirStreamIsValid pc d s); cbn [check].
  - pose proof (proj1 DV eq_refl) as DL. apply wp_ret. apply wp_bind. eapply wp_closeh; eauto; [apply DL|]. intros s1 CX1 HS _. apply wp_ret. split; auto. left. auto.
  - apply wp_fail. split; auto. right. split; [intros X; apply DV in X; discriminate|]. split; auto. apply still_refl.
Qed.
End Calls5.
