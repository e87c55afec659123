(** Effects of open and opendir. *)
From Verif Require Import Base Count FsState FsDir FsSpec FsSpecN FsCoreP2 FsMach FsVolume FsVolumeP FsReach PropFs PropNs Posix PosixSpec PosixWp PosixPath PosixPath2 PosixInv PosixStart PosixCalls PosixCalls2 PosixCalls3.
From Coq Require Import ZArith.
Ltac Zify.zify_post_hook ::= idtac.

Lemma first_least f n k : first f n = Some k -> forall j, j < k -> f j = false.
Proof.
  unfold first, below. intros H j Hj. assert (X : forall m a, find f (map N.of_nat (seq a m)) = Some k -> forall j, N.of_nat a <= j < k -> f j = false).
  { induction m as [|m IH]; cbn; intros a F i Hi; [discriminate|]. destruct (f (N.of_nat a)) eqn:E; [injection F as <-; lia|].
    destruct (N.eq_dec i (N.of_nat a)) as [->|NE]; auto. apply (IH (S a)); auto. lia. }
  apply (X _ _ H). lia.
Qed.
(** * Descriptors *)
(** A descriptor is generation * 2^20 + volume * 2^12 + handle index. *)
Definition fd_of (gen vol idx : N) : Z := (Z.of_N gen * 1048576 + Z.of_N vol * 4096 + Z.of_N idx)%Z.
Lemma lor_add a b k : b < 2 ^ k -> N.lor (N.shiftl a k) b = a * 2 ^ k + b.
Proof.
  intros H. rewrite <- N.lxor_lor.
  - rewrite <- N.add_nocarry_lxor; [now rewrite N.shiftl_mul_pow2|]. apply N.bits_inj_0. intros i. rewrite N.land_spec. destruct (N.lt_ge_cases i k) as [L|L].
    + rewrite N.shiftl_spec_low; auto.
    + destruct (N.eq_dec b 0) as [->|NZ]; [rewrite N.bits_0; apply andb_false_r|]. rewrite (N.bits_above_log2 b i); [apply andb_false_r|].
      apply N.lt_le_trans with k; auto. apply N.log2_lt_pow2; lia.
  - apply N.bits_inj_0. intros i. rewrite N.land_spec. destruct (N.lt_ge_cases i k) as [L|L].
    + rewrite N.shiftl_spec_low; auto.
    + destruct (N.eq_dec b 0) as [->|NZ]; [rewrite N.bits_0; apply andb_false_r|]. rewrite (N.bits_above_log2 b i); [apply andb_false_r|].
      apply N.lt_le_trans with k; auto. apply N.log2_lt_pow2; lia.
Qed.
Lemma fd_bits_eq gen vol idx : vol < 256 -> idx < 4096 -> Z.of_N (fd_bits gen vol idx) = fd_of gen vol idx.
Proof. intros Hv Hi. unfold fd_bits, fd_of. rewrite !lor_add by assumption. change (2 ^ 8) with 256. change (2 ^ 12) with 4096. lia. Qed.
Lemma land_ones a k m : m = N.ones k -> N.land a m = a mod 2 ^ k.
Proof. intros ->. apply N.land_ones. Qed.
Lemma unpack_of gen vol idx : gen < 2048 -> vol < 256 -> idx < 4096 -> FildesUnpack (fd_of gen vol idx) = (gen, vol, idx).
Proof.
  intros Hg Hv Hi. unfold FildesUnpack, fd_of. replace (Z.to_N _) with (gen * 1048576 + vol * 4096 + idx) by lia.
  rewrite (land_ones _ 11 2047 eq_refl), (land_ones _ 8 255 eq_refl), (land_ones _ 12 4095 eq_refl), !N.shiftr_div_pow2.
  change (2 ^ 11) with 2048. change (2 ^ 8) with 256. change (2 ^ 12) with 4096.
  assert (E1 : (gen * 1048576 + vol * 4096 + idx) / 4096 = gen * 256 + vol).
  { symmetry. apply (N.div_unique _ 4096 _ idx); [auto|lia]. }
  rewrite E1. assert (E2 : (gen * 256 + vol) / 256 = gen). { symmetry. apply (N.div_unique _ 256 _ vol); [auto|lia]. }
  rewrite E2. f_equal; [f_equal|].
  - apply N.mod_small; auto.
  - symmetry. apply (N.mod_unique _ _ gen); auto. lia.
  - symmetry. apply (N.mod_unique _ _ (gen * 256 + vol)); auto. lia.
Qed.

Section Calls4.
Variable pc : pcfg.
Hypothesis PC : pcfg_ok pc.
Set Default Proof Using "PC".
Notation SEP := (SEP pc).
Notation NV := (NV pc).
Notation HC := (HC pc).
Notation TC := (TC pc).
Notation MM := (MMASK pc).
Notation TM := (TMASK pc).
Notation TD := (TDEF pc).
Notation comps := (comps SEP).
Notation VOK := (VOK pc).
Notation VInv := (VInv pc).
Notation PInv := (PInv pc).
Notation wp := (wp pc).
Notation vask := (vask pc).
Notation vdir := (vdir pc).
Notation vfile := (vfile pc).
Notation vstep := (vstep pc).
Notation did := (did pc).
Notation vlook := (vlook pc).
Notation vlook_name := (vlook_name pc).
Notation starts := (starts pc).
Notation Ctx := (Ctx pc).

(** ** open *)
(** The first unused handle. *)
Definition lowest_free (s : pst) (k : N) : Prop := k < HC /\ h_ino (p_h s k) = 0 /\ forall j, j < k -> h_ino (p_h s j) <> 0.
Definition new_handle (n j : N) (dir : bool) (m : N) : handle := mkH j n dir (has m O_RDONLY || has m O_RDWR) (has m O_WRONLY || has m O_RDWR) (has m O_APPEND) 0.
(** Handle [k] now refers to inode [j] of volume [n]. *)
Definition opened (s : pst) (n j k : N) (dir : bool) (m : N) (r : res (N * Z)) (s' : pst) : Prop :=
  hset s k (new_handle n j dir m) s' /\ r = Ok (k, fd_of (p_gen s n) n k) /\ j <> 0.
(** An existing inode is opened. *)
Definition open_existing (s : pst) (n j k m : N) (ty : ftype) (r : res (N * Z)) (s' : pst) : Prop :=
  vfile n (p_v s n) j /\
    (if match ty with FTYPE_DIR => true | _ => false end then r = Err ENOTDIR /\ still s s' else
     if has m O_TRUNC then exists o s1, did s n (CTruncate j 0) o s1 /\ match o with Ok _ => opened s1 n j k false m r s' | Err e => r = Err e /\ still s1 s' end
     else opened s n j k false m r s') \/
  vdir n (p_v s n) j /\
    (if match ty with FTYPE_FILE => true | _ => negb (has m O_RDONLY) end then r = Err EISDIR /\ still s s' else
     if has m O_TRUNC then exists o s1, did s n (CTruncate j 0) o s1 /\ match o with Ok _ => opened s1 n j k true m r s' | Err e => r = Err e /\ still s1 s' end
     else opened s n j k true m r s').
Definition open_post (tid : N) (path : str) (m : N) (ty : ftype) (s : pst) (r : res (N * Z)) (s' : pst) : Prop :=
  exists st, starts tid path s st /\
    match st with
    | Err e => r = Err e /\ still s s'
    | Ok (n, i, l) =>
      if s_ro (v_s (p_v s n)) && negb (m =? O_RDONLY) then r = Err EROFS /\ still s s' else
      (forall k, k < HC -> h_ino (p_h s k) <> 0) /\ r = Err EMFILE /\ still s s' \/
      exists k, lowest_free s k /\
      if has m O_CREAT then
        match vlook_name n EISDIR (p_v s n) i l with
        | Err e => r = Err e /\ still s s'
        | Ok (d, nm) =>
          exists o s1, did s n (CCreate d nm false) o s1 /\
          match o with
          | Ok (ONum j) => vfile n (p_v s1 n) j /\ opened s1 n j k false m r s'
          | Ok _ => False
          | Err e => if errno_eqb e EEXIST && negb (has m O_EXCL) then
                       exists j, vask n (p_v s1 n) (CLookup d nm) = Ok (ONum j) /\ open_existing s1 n j k m ty r s'
                     else r = Err e /\ still s1 s'
          end
        end
      else match vlook n (p_v s n) i l with
           | Err e => r = Err e /\ still s s'
           | Ok j => open_existing s n j k m ty r s'
           end
    end.

Lemma step_at s n c r s' : did s n c r s' -> vstep n (p_v s n) (Some (ECall c r)) (p_v s' n).
Proof using. intros (_ & v' & ST & E). rewrite E, N.eqb_refl. auto. Qed.
Lemma did_mnt s n c r s' : n < NV -> VOK n (p_v s n) -> did s n c r s' -> (forall f, c <> CMount f) -> c <> CUnmount -> v_mnt (p_v s' n) = v_mnt (p_v s n).
Proof. intros Hn HV DD N1 N2. eapply (step_mnt_eq pc PC); eauto. apply step_at; eauto. Qed.
(** A created inode is there; a call that succeeds was made on a mounted volume. *)
Lemma did_create s n d nm dir j s' : n < NV -> VOK n (p_v s n) -> did s n (CCreate d nm dir) (Ok (ONum j)) s' ->
  v_mnt (p_v s n) = true /\ (if dir then vdir n (p_v s' n) j else vfile n (p_v s' n) j) /\ (exists q, vask n (p_v s' n) (CStat j) = Ok (OStat (dir, 1, 0, q)) \/ dir = true).
Proof.
  intros Hn HV DD. pose proof (did_mnt s n _ _ s' Hn HV DD ltac:(discriminate) ltac:(discriminate)) as ME. destruct HV as (_ & a & SA & _).
  pose proof (step_sim _ (ok_g _ PC n Hn) _ MM TM TD _ _ _ _ SA (step_at _ _ _ _ _ DD)) as (a' & AS & SA').
  inversion AS; subst; try discriminate. 
  match goal with X : op_ok _ _ _ _ _ _ _ |- _ => destruct X as (j' & EJ & _ & _ & _ & OC) end. injection EJ as <-.
  destruct OC as (N0 & EJ & (q & sl & EP) & _ & k & _ & EW).
  assert (XX : W' j = Some (newnode dir d)).
  { rewrite EW. unfold set_slot. assert (NJ : d <> j) by congruence.
    assert (E : upd W j (Some (newnode dir d)) d = W d) by (unfold upd; destruct (N.eqb_spec d j); congruence).
    rewrite E, EP. unfold upd. destruct (N.eqb_spec j d); [congruence|]. now rewrite N.eqb_refl. }
  split; [exact (vsim_mnt pc PC _ _ _ _ _ _ Hn SA)|]. split.
  - destruct dir; [apply (vdir_W pc PC n _ _ _ _ _ j Hn SA')|apply (vfile_W pc PC n _ _ _ _ _ j Hn SA')]; red; unfold newnode in XX; eauto.
  - destruct dir; [exists 0; auto|]. unfold newnode in XX. pose proof (vask_ok pc PC n _ _ _ _ _ (CStat j) Hn SA' eq_refl I) as RD. cbn in RD.
    destruct (vask n (p_v s' n) (CStat j)) as [[]|e]; try contradiction; [|destruct RD as (_ & RD); congruence].
    destruct x as [[[dd nl] sz] bl]. destruct RD as [(_ & _ & p & sl' & X)|(-> & b & X)]; [congruence|]. rewrite XX in X. injection X as <- <- _. eauto.
Qed.
(** A failed create changes no answer. *)
Lemma did_err s n c e s' : n < NV -> VOK n (p_v s n) -> v_mnt (p_v s n) = true -> did s n c (Err e) s' -> modifies c = true ->
  exists W C C', vsim pc n (p_v s n) (Mnt W C (s_ro (v_s (p_v s n))) (v_mask (p_v s n))) /\ vsim pc n (p_v s' n) (Mnt W C' (s_ro (v_s (p_v s n))) (v_mask (p_v s n))) /\
    (e = EROFS /\ s_ro (v_s (p_v s n)) = true \/ op_err (NMAX (gs pc n)) (INODE_SIZE_MAX (gs pc n)) (ICNT (gs pc n)) c W e).
Proof.
  intros Hn HV MN DD MD. destruct (VOK_W pc PC _ _ Hn HV MN) as (W & C & SA & _).
  pose proof (step_sim _ (ok_g _ PC n Hn) _ MM TM TD _ _ _ _ SA (step_at _ _ _ _ _ DD)) as (a' & AS & SA').
  remember (s_ro (v_s (p_v s n))) as ro eqn:ERO. remember (v_mask (p_v s n)) as mask eqn:EMK. clear ERO EMK.
  inversion AS; subst; try discriminate.
  - exists W, C, C1. split; [auto|]. split; [auto|]. right; auto.
  - exists W, C, C. split; [auto|]. split; [auto|]. left; auto.
  - destruct c; discriminate.
  - match goal with X : _ \/ _ |- _ => destruct X; subst; discriminate end.
Qed.
Lemma did_create_exist s n d nm s' : n < NV -> VOK n (p_v s n) -> v_mnt (p_v s n) = true -> did s n (CCreate d nm false) (Err EEXIST) s' -> nozero nm ->
  exists j, vask n (p_v s' n) (CLookup d nm) = Ok (ONum j) /\ vask n (p_v s n) (CLookup d nm) = Ok (ONum j).
Proof.
  intros Hn HV MN DD NZ. destruct (did_err s n _ _ s' Hn HV MN DD eq_refl) as (W & C & C' & SA & SA' & [(X & _)|OE]); [discriminate|].
  assert (NM : exists j, named W d nm j).
  { destruct OE as [OE|[OE|[OE|[(OE & _)|[(_ & OE)|(OE & _)]]]]]; auto; try discriminate OE; exfalso.
    - destruct OE as [(X & _)|(X & _)]; discriminate.
    - destruct OE as [(X & _)|(X & _)]; discriminate. }
  destruct NM as (j & NM). exists j. split; [apply (vfound_W pc PC n _ W C' _ _ d nm j Hn SA' NZ)|apply (vfound_W pc PC n _ W C _ _ d nm j Hn SA NZ)]; auto.
Qed.
Lemma gen_mnt tid s n : Ctx tid s -> n < NV -> v_mnt (p_v s n) = true -> 1 <= p_gen s n <= 2047.
Proof using. intros CX Hn MN. destruct (i_gen _ _ (x_inv _ _ _ CX) n Hn) as [A B]. split; auto. Qed.
Lemma wp_fin tid n j k (dir : bool) m s0 s : Ctx tid s -> still s0 s -> k < HC -> n < NV -> v_mnt (p_v s n) = true -> (if dir then vdir n (p_v s n) j else vfile n (p_v s n) j) ->
  wp (bind (modify (set_h k (new_handle n j dir m))) (fun _ : unit => bind (act (fun s => (match FildesPack pc k n s with Some fd => Ok fd | None => Err EFUBAR end, s))) (fun fd => ret (k, fd))))
     (fun (r : res (N * Z)) s' => Ctx tid s' /\ opened s0 n j k dir m r s') s.
Proof.
  intros CX ST Hk Hn MN EX. pose proof (gen_mnt tid s n CX Hn MN) as HG. pose proof (ok_nv _ PC) as NVB. pose proof (ok_hc _ PC) as HCB. apply wp_bind. apply wp_modify; [apply CX|reflexivity|].
  set (s1 := set_h k (new_handle n j dir m) s). assert (HS : hset s k (new_handle n j dir m) s1) by apply set_h_hset.
  assert (CX1 : Ctx tid s1).
  { eapply hset_Ctx; eauto; [|apply CX]. intros _. split; [auto|]. split; [auto|]. cbn. destruct dir; auto. split; auto. apply N.le_0_l. }
  apply wp_bind. eapply wp_Act; eauto. unfold FildesPack. cbn [fst snd].
  replace (HC <=? k) with false by (symmetry; apply N.leb_gt; auto). replace (NV <=? n) with false by (symmetry; apply N.leb_gt; auto). cbn [orb].
  rewrite fd_bits_eq by (clear - Hk Hn NVB HCB; lia). change (p_gen s1 n) with (p_gen s n).
  assert (FM : (fd_of (p_gen s n) n k <? FD_MIN)%Z = false). { apply Z.ltb_ge. unfold FD_MIN, fd_of. clear - HG. lia. }
  rewrite FM. apply wp_ret. split; auto. split; [eapply still_hset; eauto|]. destruct ST as ((_ & _ & _ & G) & _). rewrite G. split; [reflexivity|].
  intros ->. destruct dir; [eapply (vdir_nz pc PC); eauto; apply CX; auto|eapply (vfile_nz pc PC); eauto; apply CX; auto].
Qed.
Lemma wp_existing tid n j k ty m s0 s : Ctx tid s -> still s0 s -> p_cur s = n -> k < HC -> n < NV -> v_mnt (p_v s n) = true -> vfile n (p_v s n) j \/ vdir n (p_v s n) j ->
  wp (bind (bind (core_stat pc j) (fun st => bind (ModeTypeCheck (st_dir st) ty) (fun _ => bind (check (negb (st_dir st && negb (has m O_RDONLY))) EISDIR)
      (fun _ : unit => bind (if has m O_TRUNC then core_unit pc (CTruncate j 0) else ret tt) (fun _ : unit => ret (st_dir st))))))
     (fun dir => bind (modify (set_h k (new_handle n j dir m))) (fun _ : unit => bind (act (fun s => (match FildesPack pc k n s with Some fd => Ok fd | None => Err EFUBAR end, s))) (fun fd => ret (k, fd)))))
     (fun r s' => Ctx tid s' /\ open_existing s0 n j k m ty r s') s.
Proof.
  intros CX ST CU Hk Hn MN EX. apply wp_bind. apply wp_bind. eapply wp_stat; eauto. intros s1 CX1 SM1. rewrite CU. pose proof SM1 as (_ & CU1 & V1).
  assert (ST1 : still s0 s1) by (eapply still_trans; [exact ST|now apply same_still]). pose proof ST as (_ & V0). assert (CUN : p_cur s1 = n) by congruence.
  assert (TR : forall dir : bool, (if dir then vdir n (p_v s n) j else vfile n (p_v s n) j) ->
    (forall r s', (if has m O_TRUNC then exists o s1, did s0 n (CTruncate j 0) o s1 /\ match o with Ok _ => opened s1 n j k dir m r s' | Err e => r = Err e /\ still s1 s' end
     else opened s0 n j k dir m r s') -> open_existing s0 n j k m ty r s') ->
    wp (bind (if has m O_TRUNC then core_unit pc (CTruncate j 0) else ret tt) (fun _ : unit => ret dir))
      (fun r s' => match r with Ok dir => wp (bind (modify (set_h k (new_handle n j dir m))) (fun _ : unit => bind (act (fun s => (match FildesPack pc k n s with Some fd => Ok fd | None => Err EFUBAR end, s))) (fun fd => ret (k, fd))))
     (fun r s' => Ctx tid s' /\ open_existing s0 n j k m ty r s') s' | Err e => Ctx tid s' /\ open_existing s0 n j k m ty (Err e) s' end) s1).
  { intros dir ED H. apply wp_bind. destruct (has m O_TRUNC).
    - eapply wp_do_unit; eauto; [exact I|exact I|apply harmless_easy; [auto|discriminate|discriminate|discriminate]|]. intros o s2 CX2 DD CU2. rewrite CUN in DD.
      pose proof (did_still _ _ _ _ _ _ _ ST1 DD) as DD0. pose proof (x_v _ _ _ CX1 _ Hn) as HV1.
      assert (MN2 : v_mnt (p_v s2 n) = true). { rewrite (did_mnt s1 n _ _ s2 Hn HV1 DD); [rewrite V1; auto|discriminate|discriminate]. }
      destruct o as [o|e].
      + apply wp_ret. eapply wp_conseq; [eapply (wp_fin tid n j k dir m s2 s2); eauto; [apply still_refl|]|].
        * pose proof (step_kept pc PC n _ _ _ _ j Hn HV1 ltac:(rewrite V1; auto) (step_at _ _ _ _ _ DD) I ltac:(discriminate) ltac:(discriminate) ltac:(intros; discriminate)) as (_ & K1 & K2).
          rewrite V1 in K1, K2. destruct dir; auto.
        * intros r s3 (CX3 & OP). split; auto. apply H. exists (Ok o), s2. auto.
      + split; auto. apply H. exists (Err e), s2. split; auto. split; auto. apply still_refl.
    - apply wp_ret. apply wp_ret. eapply wp_conseq; [eapply (wp_fin tid n j k dir m s0 s1); eauto; rewrite V1; auto|]. intros r s3 (CX3 & OP). split; auto. }
  destruct EX as [HF|HD].
  - destruct (vstat4_file pc _ _ _ HF) as (x & EX & DX). rewrite EX, DX. cbn [andb negb]. apply wp_bind. destruct ty; cbn [ModeTypeCheck negb check].
    + apply wp_ret. apply wp_bind. apply wp_ret. apply TR; auto. intros r s' X. left. rewrite <- V0. split; auto.
    + apply wp_fail. split; auto. left. rewrite <- V0. split; auto.
    + apply wp_ret. apply wp_bind. apply wp_ret. apply TR; auto. intros r s' X. left. rewrite <- V0. split; auto.
  - destruct (vstat4_dir pc _ _ _ HD) as (x & EX & DX). rewrite EX, DX. cbn [andb negb]. apply wp_bind.
    assert (RD : ty <> FTYPE_FILE -> wp (bind (check (negb (negb (has m O_RDONLY))) EISDIR) (fun _ : unit => bind (if has m O_TRUNC then core_unit pc (CTruncate j 0) else ret tt) (fun _ : unit => ret true)))
      (fun r s' => match r with Ok dir => wp (bind (modify (set_h k (new_handle n j dir m))) (fun _ : unit => bind (act (fun s => (match FildesPack pc k n s with Some fd => Ok fd | None => Err EFUBAR end, s))) (fun fd => ret (k, fd))))
     (fun r s' => Ctx tid s' /\ open_existing s0 n j k m ty r s') s' | Err e => Ctx tid s' /\ open_existing s0 n j k m ty (Err e) s' end) s1).
    { intros NT. apply wp_bind. destruct (has m O_RDONLY) eqn:ER; cbn [negb check].
      - apply wp_ret. apply TR; auto. intros r s' X. right. rewrite <- V0. split; auto. rewrite ER. destruct ty; cbn; auto. tauto.
      - apply wp_fail. split; auto. right. rewrite <- V0. split; auto. rewrite ER. destruct ty; cbn; auto. }
    destruct ty; cbn [ModeTypeCheck negb check].
    + apply wp_fail. split; auto. right. rewrite <- V0. split; auto.
    + apply wp_ret. apply RD. discriminate.
    + apply wp_ret. apply RD. discriminate.
Qed.
Lemma do_fildesopen tid path m ty s : Ctx tid s -> wp (FildesOpen pc tid path m ty) (fun r s' => Ctx tid s' /\ open_post tid path m ty s r s') s.
Proof.
  intros CX. unfold FildesOpen. apply wp_bind. eapply wp_start; eauto. intros r s1 CX1 ST1 SO. destruct r as [[[n i] l]|er].
  2: { split; auto. exists (Err er). auto. }
  destruct SO as (SS & CU & Hn & NZ & HI & HD). pose proof ST1 as ((R1 & R2 & R3 & R4) & V1). pose proof (x_v _ _ _ CX _ Hn) as HV.
  apply wp_bind. eapply wp_Get; eauto. unfold cur_vol. rewrite CU, V1. apply wp_bind.
  assert (MK : forall R s', (if s_ro (v_s (p_v s n)) && negb (m =? O_RDONLY) then R = Err EROFS /\ still s s' else
      (forall k, k < HC -> h_ino (p_h s k) <> 0) /\ R = Err EMFILE /\ still s s' \/
      exists k, lowest_free s k /\
      if has m O_CREAT then
        match vlook_name n EISDIR (p_v s n) i (comps l) with
        | Err e => R = Err e /\ still s s'
        | Ok (d, nm) =>
          exists o s1, did s n (CCreate d nm false) o s1 /\
          match o with
          | Ok (ONum j) => vfile n (p_v s1 n) j /\ opened s1 n j k false m R s'
          | Ok _ => False
          | Err e => if errno_eqb e EEXIST && negb (has m O_EXCL) then
                       exists j, vask n (p_v s1 n) (CLookup d nm) = Ok (ONum j) /\ open_existing s1 n j k m ty R s'
                     else R = Err e /\ still s1 s'
          end
        end
      else match vlook n (p_v s n) i (comps l) with
           | Err e => R = Err e /\ still s s'
           | Ok j => open_existing s n j k m ty R s'
           end) -> open_post tid path m ty s R s').
  { intros R s' H. exists (Ok (n, i, comps l)). split; auto. }
  destruct (s_ro (v_s (p_v s n)) && negb (m =? O_RDONLY)); cbn [negb check].
  { apply wp_fail. split; auto. }
  apply wp_ret. apply wp_bind. eapply wp_Act; eauto. cbn [fst snd]. rewrite R2.
  destruct (first (fun k => h_ino (p_h s k) =? INODE_INVALID) HC) as [k|] eqn:EF.
  2: { split; auto. apply MK. left. split; auto. intros k Hk E. pose proof (first_none _ _ EF k Hk) as X. cbn in X. rewrite E in X. discriminate. }
  assert (LF : lowest_free s k).
  { pose proof (first_some _ _ _ EF) as [F1 F2]. apply N.eqb_eq in F2. split; auto. split; auto. intros j Hj E.
    pose proof (first_least _ _ _ EF j Hj) as X. cbn in X. rewrite E in X. discriminate. }
  pose proof LF as (Hk & _ & _). apply wp_bind. destruct (has m O_CREAT).
  - apply wp_bind. eapply wp_toname; eauto; [rewrite CU, V1; auto|]. intros s2 CX2 SM2 NM2. rewrite CU, V1 in *. pose proof SM2 as (_ & CU2 & V2).
    assert (ST2 : still s s2) by (eapply still_trans; [exact ST1|now apply same_still]).
    destruct (vlook_name n EISDIR (p_v s n) i (comps l)) as [[d nm]|er] eqn:E1.
    2: { split; auto. apply MK. right. exists k. auto. }
    destruct (NM2 d nm eq_refl) as (MN & NZN & NSN & _). clear NM2. cbn [fst snd]. apply wp_catch.
    eapply wp_do_num; eauto; [apply harmless_easy; [auto|discriminate|discriminate|discriminate]|]. intros o s3 CX3 DD CU3.
    assert (CUN : p_cur s2 = n) by congruence. rewrite CUN in *. pose proof (did_still _ _ _ _ _ _ _ ST2 DD) as DD0.
    assert (MN3 : v_mnt (p_v s3 n) = true). { rewrite (did_mnt s n _ _ s3 Hn HV DD0); [auto|discriminate|discriminate]. }
    destruct o as [o|e].
    + destruct (did_out_num pc PC s n _ o s3 Hn HV DD0) as (j & ->); [left; eauto|]. destruct (did_create s n d nm false j s3 Hn HV DD0) as (_ & VF & _).
      apply wp_ret. cbn [fst snd]. apply wp_bind. apply wp_ret. eapply wp_conseq; [eapply (wp_fin tid n j k false m s3 s3); eauto; apply still_refl|].
      intros r s4 (CX4 & OP). split; auto. apply MK. right. exists k. split; auto. exists (Ok (ONum j)), s3. split; auto.
    + destruct (errno_eqb e EEXIST && negb (has m O_EXCL)) eqn:EE.
      * apply andb_true_iff in EE as [EE1 EE2]. assert (e = EEXIST) by (destruct e; try discriminate EE1; reflexivity). subst e.
        destruct (did_create_exist s n d nm s3 Hn HV MN DD0 NZN) as (j & LJ & _). apply wp_bind. eapply wp_ask; eauto. intros s4 CX4 SM4. rewrite CU3, LJ. apply wp_ret. cbn [fst snd].
        pose proof SM4 as (_ & CU4 & V4). 
        destruct (J_look pc PC _ _ d nm j Hn (x_v _ _ _ CX3 _ Hn) MN3 NZN LJ) as (HJ & _ & _). apply J_exists in HJ.
        eapply wp_conseq; [eapply (wp_existing tid n j k ty m s3 s4); eauto; [now apply same_still|congruence|rewrite V4; auto|rewrite V4; auto]|].
        intros r s5 (CX5 & OP). split; auto. apply MK. right. exists k. split; auto. exists (Err EEXIST), s3. split; auto. change (errno_eqb EEXIST EEXIST) with true. rewrite EE2. cbn [andb]. eauto.
      * split; auto. apply MK. right. exists k. split; auto. exists (Err e), s3. split; auto. rewrite EE. split; auto. apply still_refl.
  - apply wp_bind. eapply wp_lookup; eauto; [rewrite CU, V1; auto|]. intros s2 CX2 SM2 NM2. rewrite CU, V1 in *. pose proof SM2 as (_ & CU2 & V2).
    assert (ST2 : still s s2) by (eapply still_trans; [exact ST1|now apply same_still]). pose proof ST2 as (_ & VV2).
    destruct (vlook n (p_v s n) i (comps l)) as [j|er] eqn:E1.
    2: { split; auto. apply MK. right. exists k. auto. }
    destruct (NM2 j eq_refl) as (MN & HJ). apply wp_ret. cbn [fst snd].
    eapply wp_conseq; [eapply (wp_existing tid n j k ty m s s2); eauto; [congruence|rewrite VV2; auto|rewrite VV2; auto]|].
    intros r s5 (CX5 & OP). split; auto. apply MK. right. exists k. split; auto.
Qed.
(** red_open and red_opendir. *)
Lemma do_open tid path m s : Ctx tid s -> wp (red_open pc tid path m) (fun r s' => Ctx tid s' /\
  if mode_bad m then r = Err EINVAL /\ s' = s else exists r0, open_post tid path m FTYPE_EITHER s r0 s' /\ r = match r0 with Ok (_, fd) => Ok (RFd fd) | Err e => Err e end) s.
Proof.
  intros CX. unfold red_open. destruct (mode_bad m); [apply wp_fail; auto|]. apply wp_bind. eapply wp_conseq; [apply do_fildesopen; eauto|].
  intros [[k fd]|e] s' (CX' & OP); cbn; (split; [auto|]); eexists; split; [exact OP|reflexivity|exact OP|reflexivity].
Qed.
End Calls4.
