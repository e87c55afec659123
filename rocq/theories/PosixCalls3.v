(** Effects of the path-based calls, continued: rename, link, chdir, open. *)
From Verif Require Import Base Count FsState FsDir FsSpec FsSpecN FsCoreP2 FsMach FsVolume FsVolumeP FsReach PropFs PropNs Posix PosixSpec PosixWp PosixPath PosixPath2 PosixInv PosixStart PosixCalls PosixCalls2.
From Coq Require Import ZArith.
Ltac Zify.zify_post_hook ::= idtac.

Section Calls3.
Variable pc : pcfg.
Hypothesis PC : pcfg_ok pc.
Set Default Proof Using "PC".
Notation SEP := (SEP pc).
Notation NV := (NV pc).
Notation HC := (HC pc).
Notation TC := (TC pc).
Notation MM := (MMASK pc).
Notation TM := (TMASK pc).
Notation TD := (TDEF pc).
Notation comps := (comps SEP).
Notation VOK := (VOK pc).
Notation VInv := (VInv pc).
Notation PInv := (PInv pc).
Notation wp := (wp pc).
Notation vask := (vask pc).
Notation vdir := (vdir pc).
Notation vfile := (vfile pc).
Notation vstep := (vstep pc).
Notation did := (did pc).
Notation vlook := (vlook pc).
Notation vlook_name := (vlook_name pc).
Notation starts := (starts pc).
Notation Ctx := (Ctx pc).
Notation pinned := (pinned pc).

Lemma starts_still tid path s s1 x : still s s1 -> starts tid path s1 x -> starts tid path s x.
Proof using.
  intros ((_ & _ & T & _) & _) H. inversion H; subst; [eapply St_abs; eauto|eapply St_cwd; eauto|eapply St_none; eauto]. unfold cwd_is in *. rewrite T in *. auto.
Qed.
Lemma pinned_still s s1 n i : still s s1 -> (pinned s1 n i <-> pinned s n i).
Proof using. intros ((_ & H & T & _) & V). unfold PosixCalls2.pinned, in_use. rewrite V, H, T. tauto. Qed.

(** ** rename *)
Definition rename_post (tid : N) (old new : str) (s : pst) (r : res pout) (s' : pst) : Prop :=
  exists a b, starts tid old s a /\ starts tid new s b /\
    match a, b with
    | Err e, _ => r = Err e /\ still s s'
    | Ok _, Err e => r = Err e /\ still s s'
    | Ok (n, i, l), Ok (m, j, k) =>
      if negb (n =? m) then r = Err EXDEV /\ still s s' else
      match vlook_name n EBUSY (p_v s n) i l, vlook_name n EBUSY (p_v s n) j k with
      | Err e, _ => r = Err e /\ still s s'
      | Ok _, Err e => r = Err e /\ still s s'
      | Ok (d, nm), Ok (d', nm') =>
        match vask n (p_v s n) (CLookup d' nm') with
        | Ok (ONum t) => r = Err EBUSY /\ still s s' /\ pinned s n t \/
            ~ pinned s n t /\ exists o, did s n (CRename d nm d' nm') o s' /\ r = unit_of o
        | Ok _ => False
        | Err e => if errno_eqb e ENOENT then exists o, did s n (CRename d nm d' nm') o s' /\ r = unit_of o else r = Err e /\ still s s'
        end
      end
    end.
Lemma start_more tid path s s1 : Ctx tid s -> still s s1 -> forall r s', start_ok pc s1 tid path r s' -> start_ok pc s tid path r s'.
Proof using.
  intros CX ST r s' H. destruct r as [[[n i] l]|e]; cbn in *; [|eapply starts_still; eauto]. destruct H as (A & B & C & D & E & F).
  split; [eapply starts_still; eauto|]. split; auto. split; auto. split; auto. split; auto. destruct ST as (_ & V). rewrite V in F. auto.
Qed.
(** Every path has a starting point. *)
Lemma starts_ex tid path s : Ctx tid s -> exists b, starts tid path s b.
Proof.
  intros CX. pose proof (prefix_lookup_spec pc PC path) as PL. assert (DR : relative SEP path \/ ~ relative SEP path).
  { pose proof (relative_spec pc PC path) as X. destruct (negb (ch path =? SEP) && negb (ch path =? 0)); [left; now apply X|right; intros Y; apply X in Y; discriminate]. }
  destruct (slot_spec pc tid s (x_inv _ _ _ CX) (x_init _ _ _ CX) (x_reg _ _ _ CX)) as (k & _ & Hk & EK & CW).
  destruct (prefix_lookup pc path) as [n|].
  - pose proof (pick_local pc PC path n PL) as LC. destruct (Posix.prefix pc n) as [|c pr] eqn:EP.
    + destruct DR as [DR|DR].
      * eexists. eapply St_cwd; [|exact DR|apply CW; auto]. intros m PM. rewrite (picks_fun pc PC path m n PM PL). auto.
      * eexists. eapply St_abs; [exact PL| |right; auto]. rewrite EP. cbn. exact LC.
    + eexists. eapply St_abs; [exact PL|rewrite EP; exact LC|left; rewrite EP; discriminate].
  - destruct DR as [DR|DR].
    + eexists. eapply St_cwd; [|exact DR|apply CW; auto]. intros m (A & [(B & C & _)|(B & _)]); auto. destruct (PL m A) as [_ X]. tauto.
    + eexists. apply St_none; auto.
Qed.
Lemma do_rename tid old new s : Ctx tid s -> wp (red_rename pc tid old new) (fun r s' => Ctx tid s' /\ rename_post tid old new s r s') s.
Proof.
  intros CX. unfold red_rename. apply wp_bind. eapply wp_start; eauto. intros r s1 CX1 ST1 SO. destruct r as [[[n i] l]|er].
  2: { split; auto.
       destruct (starts_ex tid new s CX) as (b & SB).
       exists (Err er), b. auto. }
  destruct SO as (SS & CU & Hn & NZ & HI & HD). apply wp_bind. eapply wp_start; eauto. intros r s2 CX2 ST2 SO2. pose proof (still_trans _ _ _ ST1 ST2) as ST12.
  pose proof (start_more tid new s s1 CX ST1 _ _ SO2) as SO2'. clear SO2. destruct r as [[[m j] l2]|er].
  2: { split; auto. exists (Ok (n, i, comps l)), (Err er). auto. }
  destruct SO2' as (SS2 & CU2 & Hm & NZ2 & HI2 & HD2). apply wp_bind.
  assert (MK : forall R s', (if negb (n =? m) then R = Err EXDEV /\ still s s' else
      match vlook_name n EBUSY (p_v s n) i (comps l), vlook_name n EBUSY (p_v s n) j (comps l2) with
      | Err e, _ => R = Err e /\ still s s'
      | Ok _, Err e => R = Err e /\ still s s'
      | Ok (d, nm), Ok (d', nm') =>
        match vask n (p_v s n) (CLookup d' nm') with
        | Ok (ONum t) => R = Err EBUSY /\ still s s' /\ pinned s n t \/
            ~ pinned s n t /\ exists o, did s n (CRename d nm d' nm') o s' /\ R = unit_of o
        | Ok _ => False
        | Err e => if errno_eqb e ENOENT then exists o, did s n (CRename d nm d' nm') o s' /\ R = unit_of o else R = Err e /\ still s s'
        end
      end) -> rename_post tid old new s R s').
  { intros R s' H. exists (Ok (n, i, comps l)), (Ok (m, j, comps l2)). split; auto. }
  destruct (N.eqb_spec n m) as [EN|NE]; cbn [negb] in MK.
  2: { apply wp_fail. split; auto. }
  apply wp_ret. assert (CUN : p_cur s2 = n) by congruence. pose proof ST12 as (_ & V2). rewrite <- EN in *. clear EN Hm m.
  apply wp_bind. eapply wp_toname; eauto; [rewrite CUN, V2; auto|]. intros s3 CX3 SM3 NM3. rewrite CUN, V2 in *. pose proof SM3 as (_ & CU3 & V3).
  assert (ST3 : still s s3) by (eapply still_trans; [exact ST12|now apply same_still]).
  destruct (vlook_name n EBUSY (p_v s n) i (comps l)) as [[d nm]|er] eqn:E1.
  2: { split; auto. }
  destruct (NM3 d nm eq_refl) as (MN & NZN & NSN & _). clear NM3. apply wp_bind. eapply wp_toname; eauto; [rewrite CU3, CUN, V3, V2; auto|].
  intros s4 CX4 SM4 NM4. rewrite CU3, CUN, V3, V2 in *. pose proof SM4 as (_ & CU4 & V4).
  assert (ST4 : still s s4) by (eapply still_trans; [exact ST3|now apply same_still]).
  destruct (vlook_name n EBUSY (p_v s n) j (comps l2)) as [[d' nm']|er] eqn:E2.
  2: { split; auto. }
  destruct (NM4 d' nm' eq_refl) as (_ & NZN' & NSN' & _). clear NM4. cbn [fst snd]. apply wp_bind. apply wp_catch. pose proof (x_v _ _ _ CX _ Hn) as HV.
  destruct (VOK_W pc PC _ _ Hn HV MN) as (W & C' & SA & _). pose proof (look_num pc PC n _ _ _ _ _ d' nm' Hn SA NZN') as LN.
  eapply wp_ask; eauto. intros s5 CX5 SM5. assert (CUN4 : p_cur s4 = n) by congruence. pose proof ST4 as (_ & VV4). rewrite CUN4, VV4. pose proof SM5 as (_ & CU5 & V5).
  assert (ST5 : still s s5) by (eapply still_trans; [exact ST4|now apply same_still]). assert (CUN5 : p_cur s5 = n) by congruence. pose proof ST5 as (_ & VV5).
  assert (FIN : forall s6, Ctx tid s6 -> still s s6 -> p_cur s6 = n -> (forall t, vask n (p_v s n) (CLookup d' nm') = Ok (ONum t) -> ~ pinned s n t) ->
    (forall R s', (exists o, did s n (CRename d nm d' nm') o s' /\ R = unit_of o) -> rename_post tid old new s R s') ->
    wp (bind (core_unit pc (CRename d nm d' nm')) (fun _ => ret RUnit)) (fun r s' => Ctx tid s' /\ rename_post tid old new s r s') s6).
  { intros s6 CX6 ST6 CU6 NP H. pose proof ST6 as (_ & VV6). apply wp_bind. eapply wp_do_unit; eauto; [cbn; auto| |].
    - eapply harmless_vic; eauto; try discriminate; [reflexivity|]. rewrite CU6, VV6. intros t E. rewrite (pinned_still s s6); auto.
    - intros r s7 CX7 DD CU7. rewrite CU6 in DD. pose proof (did_still _ _ _ _ _ _ _ ST6 DD) as DD'. destruct r as [o|e].
      + apply wp_ret. split; auto. apply H. exists (Ok o). auto.
      + split; auto. apply H. exists (Err e). auto. }
  destruct (vask n (p_v s n) (CLookup d' nm')) as [[]|e] eqn:EL; try contradiction.
  - rename n0 into t. destruct (J_look pc PC _ _ d' nm' t Hn HV MN NZN' EL) as (HJ & _ & _). apply J_exists in HJ.
    eapply wp_unlinkcheck; eauto; [rewrite CUN5, VV5; auto|rewrite CUN5, VV5; auto| |]; rewrite CUN5; intros s6 CX6 SM6 HP; rewrite (pinned_still s s5 n t ST5) in HP;
      pose proof SM6 as (_ & CU6 & V6); (assert (ST6 : still s s6) by (eapply still_trans; [exact ST5|now apply same_still])).
    + apply FIN; [auto|auto|congruence| |]. * intros t' E. injection E as <-. auto. * intros R s' H. apply MK. auto.
    + split; auto. 
  - destruct (errno_eqb e ENOENT) eqn:EE.
    + apply wp_ret. apply FIN; auto. discriminate.
    + apply wp_fail. split; auto.
Qed.

(** ** link *)
Definition link_post (tid : N) (path link : str) (s : pst) (r : res pout) (s' : pst) : Prop :=
  exists a b, starts tid path s a /\ starts tid link s b /\
    match a, b with
    | Err e, _ => r = Err e /\ still s s'
    | Ok _, Err e => r = Err e /\ still s s'
    | Ok (n, i, l), Ok (m, j, k) =>
      if negb (n =? m) then r = Err EXDEV /\ still s s' else
      match vlook n (p_v s n) i l, vlook_name n EEXIST (p_v s n) j k with
      | Err e, _ => r = Err e /\ still s s'
      | Ok _, Err e => r = Err e /\ still s s'
      | Ok t, Ok (d, nm) => exists o, did s n (CLink d nm t) o s' /\ r = unit_of o
      end
    end.
Lemma do_link tid path link s : Ctx tid s -> wp (red_link pc tid path link) (fun r s' => Ctx tid s' /\ link_post tid path link s r s') s.
Proof.
  intros CX. unfold red_link. apply wp_bind. eapply wp_start; eauto. intros r s1 CX1 ST1 SO. destruct r as [[[n i] l]|er].
  2: { split; auto. destruct (starts_ex tid link s CX) as (b & SB). exists (Err er), b. auto. }
  destruct SO as (SS & CU & Hn & NZ & HI & HD). apply wp_bind. eapply wp_start; eauto. intros r s2 CX2 ST2 SO2. pose proof (still_trans _ _ _ ST1 ST2) as ST12.
  pose proof (start_more tid link s s1 CX ST1 _ _ SO2) as SO2'. clear SO2. destruct r as [[[m j] l2]|er].
  2: { split; auto. exists (Ok (n, i, comps l)), (Err er). auto. }
  destruct SO2' as (SS2 & CU2 & Hm & NZ2 & HI2 & HD2). apply wp_bind.
  assert (MK : forall R s', (if negb (n =? m) then R = Err EXDEV /\ still s s' else
      match vlook n (p_v s n) i (comps l), vlook_name n EEXIST (p_v s n) j (comps l2) with
      | Err e, _ => R = Err e /\ still s s'
      | Ok _, Err e => R = Err e /\ still s s'
      | Ok t, Ok (d, nm) => exists o, did s n (CLink d nm t) o s' /\ R = unit_of o
      end) -> link_post tid path link s R s').
  { intros R s' H. exists (Ok (n, i, comps l)), (Ok (m, j, comps l2)). split; auto. }
  destruct (N.eqb_spec n m) as [EN|NE]; cbn [negb] in MK.
  2: { apply wp_fail. split; auto. }
  apply wp_ret. assert (CUN : p_cur s2 = n) by congruence. pose proof ST12 as (_ & V2). rewrite <- EN in *. clear EN Hm m.
  apply wp_bind. eapply wp_lookup; eauto; [rewrite CUN, V2; auto|]. intros s3 CX3 SM3 NM3. rewrite CUN, V2 in *. pose proof SM3 as (_ & CU3 & V3).
  assert (ST3 : still s s3) by (eapply still_trans; [exact ST12|now apply same_still]).
  destruct (vlook n (p_v s n) i (comps l)) as [t|er] eqn:E1.
  2: { split; auto. }
  destruct (NM3 t eq_refl) as (MN & _). clear NM3. apply wp_bind. eapply wp_toname; eauto; [rewrite CU3, CUN, V3, V2; auto|].
  intros s4 CX4 SM4 NM4. rewrite CU3, CUN, V3, V2 in *. pose proof SM4 as (_ & CU4 & V4).
  assert (ST4 : still s s4) by (eapply still_trans; [exact ST3|now apply same_still]).
  destruct (vlook_name n EEXIST (p_v s n) j (comps l2)) as [[d nm]|er] eqn:E2.
  2: { split; auto. }
  destruct (NM4 d nm eq_refl) as (_ & NZN & NSN & _). clear NM4. cbn [fst snd]. apply wp_bind. assert (CUN4 : p_cur s4 = n) by congruence.
  eapply wp_do_unit; eauto; [apply harmless_easy; [auto|discriminate|discriminate|discriminate]|].
  intros o s5 CX5 DD CU5. rewrite CUN4 in DD. pose proof (did_still _ _ _ _ _ _ _ ST4 DD) as DD'. destruct o as [o|e].
  + apply wp_ret. split; auto. apply MK. exists (Ok o). auto.
  + split; auto. apply MK. exists (Err e). auto.
Qed.

(** ** chdir *)
(** The working directory of task [tid] was set; nothing else changed. *)
Definition cwd_set (tid : N) (s : pst) (n i : N) (s' : pst) : Prop :=
  p_init s' = p_init s /\ p_h s' = p_h s /\ p_gen s' = p_gen s /\ (forall n, p_v s' n = p_v s n) /\
  forall k, k < TC -> p_t s' k = if t_id (p_t s k) =? tid then mkT tid n i else p_t s k.
Definition chdir_post (tid : N) (path : str) (s : pst) (r : res pout) (s' : pst) : Prop :=
  exists x, at_file pc tid path s x /\
    match x with
    | Err e => r = Err e /\ still s s'
    | Ok (n, j) => vfile n (p_v s n) j /\ r = Err ENOTDIR /\ still s s' \/ vdir n (p_v s n) j /\ r = Ok RUnit /\ cwd_set tid s n j s'
    end.
Lemma do_chdir tid path s : Ctx tid s -> wp (red_chdir pc tid path) (fun r s' => Ctx tid s' /\ chdir_post tid path s r s') s.
Proof.
  intros CX. unfold red_chdir.
  eapply (wp_atfile pc PC tid path (fun vn i => bind (if i =? ROOT then ret tt else bind (core_stat pc i) (fun st => check (st_dir st) ENOTDIR))
      (fun _ => bind (act (fun s => match task_slot pc tid s with
                | None => (Err EFUBAR, s)
                | Some k => (Ok tt, set_t (upd (p_t s) k (mkT (t_id (p_t s k)) vn i)) s)
                end)) (fun _ => ret RUnit)))); eauto.
  { intros er s' CX' ST AT. split; auto. exists (Err er). auto. }
  intros n j s1 CX1 ST1 CU Hn MN FD AT. pose proof ST1 as (RS1 & V1). pose proof (x_v _ _ _ CX _ Hn) as HV. apply wp_bind.
  assert (FIN : forall s2, Ctx tid s2 -> still s s2 -> vdir n (p_v s n) j ->
     wp (bind (act (fun s => match task_slot pc tid s with
                | None => (Err EFUBAR, s)
                | Some k => (Ok tt, set_t (upd (p_t s) k (mkT (t_id (p_t s k)) n j)) s)
                end)) (fun _ => ret RUnit)) (fun r s' => Ctx tid s' /\ chdir_post tid path s r s') s2).
  { intros s2 CX2 ST2 HD. pose proof ST2 as ((R1 & R2 & R3 & R4) & V2). destruct (slot_spec pc tid s2 (x_inv _ _ _ CX2) (x_init _ _ _ CX2) (x_reg _ _ _ CX2)) as (k & SL & Hk & EK & CW).
    apply wp_bind. eapply wp_Act; eauto; rewrite SL; cbn [fst snd]; auto. apply wp_ret. destruct CX2 as [[A B C D E F G] IN RG].
    assert (UK : forall k', k' < TC -> (t_id (p_t s2 k') =? tid) = (k' =? k)).
    { intros k' Hk'. apply Bool.eq_iff_eq_true. rewrite !N.eqb_eq. split; [|congruence]. intros X. apply (F IN k' k Hk' Hk); [congruence|]. rewrite X. apply (proj1 RG). }
    split.
    - split; [|auto|].
      + split; auto.
        * cbn. intros _ k' Hk'. unfold upd. destruct (N.eqb_spec k' k) as [->|]; [|now apply E]. split; [auto|]. right. cbn. rewrite V2. auto.
        * cbn. intros _ a b Ha Hb. unfold upd.
          assert (XX : forall q, t_id (if q =? k then mkT (t_id (p_t s2 k)) n j else p_t s2 q) = t_id (p_t s2 q)) by (intros q; destruct (N.eqb_spec q k) as [->|]; reflexivity).
          rewrite !XX. apply F; auto.
      + destruct RG as (NZ & k' & Hk' & EK'). split; auto. exists k. split; auto. cbn. unfold upd. rewrite N.eqb_refl. cbn. auto.
    - exists (Ok (n, j)). split; auto. right. split; auto. split; auto. split; [cbn; congruence|]. split; [cbn; congruence|]. split; [cbn; congruence|]. split; [cbn; auto|].
      intros k' Hk'. cbn. unfold upd. rewrite <- R3, (UK k' Hk'). destruct (N.eqb_spec k' k) as [->|]; auto. congruence. }
  destruct (N.eqb_spec j ROOT) as [EJ|NJ].
  - apply wp_ret. apply FIN; auto. subst j. apply (J_root pc PC); auto.
  - apply wp_bind. eapply wp_stat; eauto. intros s2 CX2 SM2. rewrite CU, V1. assert (ST2 : still s s2) by (eapply still_trans; [exact ST1|now apply same_still]).
    destruct FD as [HF|HD].
    + destruct (vstat4_file pc _ _ _ HF) as (x & EX & DX). rewrite EX, DX. apply wp_fail. split; auto. exists (Ok (n, j)). split; auto.
    + destruct (vstat4_dir pc _ _ _ HD) as (x & EX & DX). rewrite EX, DX. apply wp_ret. apply FIN; auto.
Qed.
End Calls3.
