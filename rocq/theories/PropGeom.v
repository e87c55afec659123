(** C14: the on-disk layout never overlaps, for every configuration that initialization accepts
    (and whose sizes do not wrap in the 32-bit arithmetic of RedVolInitGeometry; what happens
    otherwise is shown by the examples at the end). *)
From Verif Require Import Base Geometry.
From Verif Require FsState.
Ltac Zify.zify_post_hook ::= idtac.

(** * Specification: the parts of a volume and the blocks that hold them *)
Inductive part :=
| PMaster                        (* the master block *)
| PMetaroot (second : bool)      (* one of the two metaroots *)
| PImap (node : N) (w : bool)    (* one of the two locations of an imap node *)
| PInode (ino : N) (w : bool)    (* one of the two locations of an inode *)
| PAlloc (n : N).                (* the n-th allocable block *)

Definition exists_part (k : vconf) (g : geom) (p : part) : Prop :=
  match p with
  | PMaster | PMetaroot _ => True
  | PImap n _ => n < ge_nodes g
  | PInode i _ => 2 <= i < 2 + k_icount k
  | PAlloc n => n < ge_alloc g
  end.
(** where the program puts each part *)
Definition place (g : geom) (p : part) : N :=
  match p with
  | PMaster => BLOCK_NUM_MASTER
  | PMetaroot w => BLOCK_NUM_FIRST_METAROOT + (if w then 1 else 0)
  | PImap n w => RedImapNodeBlock g n w
  | PInode i w => InodeBlock g i w
  | PAlloc n => ge_fa g + n
  end.

(** The media a volume may use: [bi_scount] sectors of [bi_ssize] bytes. *)
Definition info_typed (i : bdevinfo) : Prop := bi_ssize i <= UINT32_MAX /\ bi_scount i <= UINT64_MAX.

(** * Proofs *)
Lemma pow2_pos p : 0 < 2 ^ p. Proof. apply N.neq_0_lt_0, N.pow_nonzero; lia. Qed.
Lemma pow2_le p q : p <= q -> 2 ^ p <= 2 ^ q. Proof. intros; apply N.pow_le_mono_r; lia. Qed.
Lemma pow2_lt p q : p < q -> 2 ^ p < 2 ^ q. Proof. intros; apply N.pow_lt_mono_r; lia. Qed.

Lemma divides_pow2 p : forall d, (d | 2 ^ p) -> exists q, q <= p /\ d = 2 ^ q.
Proof.
  induction p as [|p IH] using N.peano_ind; intros d H.
  - change (2 ^ 0) with 1 in H. exists 0. split; [lia|]. now apply N.divide_1_r in H.
  - rewrite N.pow_succ_r' in H.
    destruct (N.Even_or_Odd d) as [[e ->]|[e ->]].
    + destruct H as [z Hz].
      assert (D : (e | 2 ^ p)). { exists z. nia. }
      destruct (IH _ D) as (q & L & ->). exists (N.succ q). split; [lia|]. now rewrite N.pow_succ_r'.
    + assert (G : N.gcd (2 * e + 1) 2 = 1).
      { rewrite N.gcd_comm, (N.add_comm (2*e)). rewrite (N.mul_comm 2 e).
        rewrite N.gcd_add_mult_diag_r. apply N.gcd_1_r. }
      destruct (IH _ (N.gauss _ _ _ H G)) as (q & L & E). exists q. split; [lia|exact E].
Qed.

Lemma shift_loop_ok p q : 7 <= q -> q <= p -> p <= 16 -> forall n sh, sh <= p - q -> (N.to_nat (p - q - sh) < n)%nat ->
  shift_loop n (2 ^ q) (2 ^ p) sh = Some (p - q).
Proof.
  intros Q L P. induction n as [|n IH]; intros sh S F; [lia|]. cbn [shift_loop].
  assert (E : u32 (N.shiftl (2 ^ q) sh) = 2 ^ (q + sh)).
  { rewrite N.shiftl_mul_pow2, <- N.pow_add_r. unfold u32. apply N.mod_small.
    apply N.le_lt_trans with (2 ^ 16); [apply pow2_le; lia|reflexivity]. }
  rewrite E. destruct (N.ltb_spec (2 ^ (q + sh)) (2 ^ p)) as [H|H].
  - assert (sh < p - q). { apply N.pow_lt_mono_r_iff in H; lia. }
    replace (u8 (sh + 1)) with (sh + 1) by (unfold u8; symmetry; apply N.mod_small; lia).
    apply IH; lia.
  - apply N.pow_le_mono_r_iff in H; [|lia]. f_equal. lia.
Qed.

(** What RedVolInitGeometry computes when it succeeds. *)
Record geo_facts (k : vconf) (i : bdevinfo) (g : geom) : Prop := {
  gf_bs : bi_ssize i * 2 ^ ge_shift g = k_bs k;
  gf_ss : 128 <= bi_ssize i;
  gf_sh : ge_shift g <= 9;
  gf_sum : k_soff k + bi_scount i <= UINT64_MAX;
  gf_bc : ge_bc g = u32 (bi_scount i / 2 ^ ge_shift g);
  gf_min : 5 <= ge_bc g;
  gf_inl : ge_inline g = (ge_bc g - 3 <=? METAROOT_ENTRIES k);
  gf_imap : ge_imap g = if ge_inline g then 0 else 3;
  gf_nodes : ge_nodes g = if ge_inline g then 0 else
     u32 ((ge_bc g - 3) + (IMAPNODE_ENTRIES k + 2 - 1)) / (IMAPNODE_ENTRIES k + 2);
  gf_itab : ge_itab g = if ge_inline g then 3 else u32 (3 + u32 (ge_nodes g * 2));
  gf_fa : ge_fa g = u32 (ge_itab g + u32 (k_icount k * 2));
  gf_fabc : ge_fa g <= ge_bc g;
  gf_alloc : ge_alloc g = ge_bc g - ge_fa g;
  gf_ic : 1 <= k_icount k }.

Lemma geometry_total k i : vconf_typed k -> RedVolInitGeometry k i <> None.
Proof.
  intros [(p & P & BS) _ _ _ _]. unfold RedVolInitGeometry.
  destruct (k_icount k =? 0); [discriminate|].
  destruct (N.ltb_spec (bi_ssize i) SECTOR_SIZE_MIN); [discriminate|]. cbn [orb].
  destruct (N.eqb_spec (k_bs k mod bi_ssize i) 0) as [D|]; [|discriminate]. cbn [orb negb].
  destruct (UINT64_MAX - k_soff k <? bi_scount i); [discriminate|].
  assert (NZ : bi_ssize i <> 0) by (unfold SECTOR_SIZE_MIN in *; lia).
  rewrite BS in *. apply N.mod_divide in D; [|exact NZ].
  destruct (divides_pow2 _ _ D) as (q & Q & E). rewrite E in *.
  assert (7 <= q). { apply N.pow_le_mono_r_iff with 2; [lia|]. unfold SECTOR_SIZE_MIN in *. exact H. }
  rewrite (shift_loop_ok p q) by lia.
  repeat match goal with |- context [if ?b then _ else _] => destruct b end; discriminate.
Qed.

Lemma geometry_facts k i g : vconf_typed k -> RedVolInitGeometry k i = Some (Ok g) -> geo_facts k i g.
Proof.
  intros [(p & P & BS) _ _ OF _]. unfold RedVolInitGeometry.
  destruct (N.eqb_spec (k_icount k) 0) as [|IC]; [discriminate|].
  destruct (N.ltb_spec (bi_ssize i) SECTOR_SIZE_MIN) as [|SS]; [discriminate|]. cbn [orb].
  destruct (N.eqb_spec (k_bs k mod bi_ssize i) 0) as [D|]; [|discriminate]. cbn [orb negb].
  destruct (N.ltb_spec (UINT64_MAX - k_soff k) (bi_scount i)) as [|SUM]; [discriminate|].
  assert (NZ : bi_ssize i <> 0) by (unfold SECTOR_SIZE_MIN in *; lia).
  pose proof BS as BS'. rewrite BS in D. apply N.mod_divide in D; [|exact NZ].
  destruct (divides_pow2 _ _ D) as (q & Q & E).
  assert (Q7 : 7 <= q). { apply N.pow_le_mono_r_iff with 2; [lia|]. rewrite <- E. exact SS. }
  rewrite BS at 1. rewrite E at 1. rewrite (shift_loop_ok p q) by lia.
  set (bc := u32 (N.shiftr (bi_scount i) (p - q))). cbv zeta.
  destruct (N.ltb_spec bc MINIMUM_METADATA_BLOCKS) as [|MIN]; [discriminate|].
  set (inl := bc - 3 <=? METAROOT_ENTRIES k). 
  destruct (if inl then negb (k_inline k) else negb (k_extern k)); [discriminate|].
  match goal with |- (if ?b then _ else _) = _ -> _ => destruct b eqn:FA end; [discriminate|].
  apply N.ltb_ge in FA. intros H; inversion H; subst g; clear H.
  split; cbn [ge_shift ge_bc ge_inline ge_imap ge_nodes ge_itab ge_fa ge_alloc]; auto.
  - rewrite E, <- N.pow_add_r, BS'. f_equal. lia.
  - lia.
  - unfold UINT64_MAX in *. lia.
  - unfold bc. now rewrite N.shiftr_div_pow2.
  - destruct inl; reflexivity.
  - lia.
Qed.

Lemma nodes_cover b E : 0 < E + 2 -> b <= (b + (E + 1)) / (E + 2) * (E + 2).
Proof.
  intros H. pose proof (N.div_mod (b + (E + 1)) (E + 2) ltac:(lia)) as D.
  pose proof (N.mod_lt (b + (E + 1)) (E + 2) ltac:(lia)) as L.
  rewrite (N.mul_comm (E + 2)) in D. lia.
Qed.

Lemma bs_ge k : vconf_typed k -> 128 <= k_bs k <= 65536.
Proof.
  intros TY. destruct (ty_bs k TY) as (p & P & ->). split; [apply (pow2_le 7)|apply (pow2_le p 16)]; lia.
Qed.
Lemma entries_ge k : vconf_typed k -> 896 <= IMAPNODE_ENTRIES k.
Proof. intros TY. unfold IMAPNODE_ENTRIES. pose proof (bs_ge k TY). lia. Qed.

Section Layout.
Variables (k : vconf) (i : bdevinfo) (g : geom).
Hypothesis TY : vconf_typed k.
Hypothesis OK : RedVolInitGeometry k i = Some (Ok g).
Hypothesis W1 : ge_bc g + IMAPNODE_ENTRIES k < 4294967296 + 2.
Hypothesis W2 : ge_itab g + 2 * k_icount k < 4294967296.

Lemma F : geo_facts k i g. Proof using TY OK. exact (geometry_facts k i g TY OK). Qed.


Lemma nodes_eq : ge_inline g = false ->
  ge_nodes g = (ge_bc g - 3 + (IMAPNODE_ENTRIES k + 1)) / (IMAPNODE_ENTRIES k + 2).
Proof using TY OK W1. clear W2.
  intros E. rewrite (gf_nodes _ _ _ F), E. pose proof (gf_min _ _ _ F).
  replace (IMAPNODE_ENTRIES k + 2 - 1) with (IMAPNODE_ENTRIES k + 1) by lia.
  unfold u32. rewrite N.mod_small by lia. reflexivity.
Qed.

Lemma nodes_small : ge_inline g = false -> ge_nodes g * (IMAPNODE_ENTRIES k + 2) <= ge_bc g - 3 + (IMAPNODE_ENTRIES k + 1).
Proof using TY OK W1. clear W2.
  intros E. rewrite nodes_eq by auto. rewrite N.mul_comm. apply N.mul_div_le. lia.
Qed.


Lemma itab_eq : ge_itab g = 3 + 2 * ge_nodes g.
Proof using TY OK W1. clear W2.
  rewrite (gf_itab _ _ _ F). destruct (ge_inline g) eqn:E.
  - rewrite (gf_nodes _ _ _ F), E. reflexivity.
  - pose proof (nodes_small E). pose proof (entries_ge k TY). pose proof (gf_min _ _ _ F).
    assert (ge_nodes g * 898 <= ge_nodes g * (IMAPNODE_ENTRIES k + 2)) by (apply N.mul_le_mono_l; lia).
    unfold u32. rewrite (N.mod_small (ge_nodes g * 2)) by lia. rewrite N.mod_small by lia. lia.
Qed.

Lemma fa_eq : ge_fa g = 3 + 2 * ge_nodes g + 2 * k_icount k.
Proof using TY OK W1 W2.
  rewrite (gf_fa _ _ _ F). pose proof itab_eq as IT. unfold u32.
  rewrite (N.mod_small (k_icount k * 2)) by lia. rewrite N.mod_small by lia. lia.
Qed.

Lemma place_imap n w : n < ge_nodes g -> RedImapNodeBlock g n w = 3 + 2 * n + (if w then 1 else 0).
Proof using TY OK W1 W2.
  intros H. unfold RedImapNodeBlock. rewrite (gf_imap _ _ _ F).
  assert (E : ge_inline g = false). { destruct (ge_inline g) eqn:E; auto. rewrite (gf_nodes _ _ _ F), E in H. lia. }
  rewrite E. pose proof itab_eq. unfold u32.
  rewrite (N.mod_small (n * 2)) by lia. rewrite (N.mod_small (3 + n * 2)) by lia.
  rewrite N.mod_small by (destruct w; lia). destruct w; lia.
Qed.

Lemma place_inode j w : 2 <= j < 2 + k_icount k -> InodeBlock g j w = 3 + 2 * ge_nodes g + 2 * (j - 2) + (if w then 1 else 0).
Proof using TY OK W1 W2.
  intros H. unfold InodeBlock. pose proof itab_eq as IT. unfold u32.
  rewrite (N.mod_small ((j - 2) * 2)) by lia. rewrite (N.mod_small (ge_itab g + (j - 2) * 2)) by lia.
  rewrite N.mod_small by (destruct w; lia). destruct w; lia.
Qed.

(** Every part lies inside the volume, no two parts share a block, every block belongs to a part. *)
Theorem C14_disjoint :
  (forall p, exists_part k g p -> place g p < ge_bc g)
  /\ (forall p q, exists_part k g p -> exists_part k g q -> place g p = place g q -> p = q)
  /\ (forall b, b < ge_bc g -> exists p, exists_part k g p /\ place g p = b).
Proof using TY OK W1 W2.
  pose proof fa_eq as FAE. pose proof (gf_fabc _ _ _ F) as FB. pose proof (gf_alloc _ _ _ F) as AL.
  pose proof (gf_ic _ _ _ F) as IC.
  assert (V : forall p, exists_part k g p -> place g p = match p with
     | PMaster => 0 | PMetaroot w => 1 + (if w then 1 else 0)
     | PImap n w => 3 + 2 * n + (if w then 1 else 0)
     | PInode j w => 3 + 2 * ge_nodes g + 2 * (j - 2) + (if w then 1 else 0)
     | PAlloc n => ge_fa g + n end).
  { intros [|w|n w|j w|n] H; cbn in H |- *; auto using place_imap, place_inode. }
  repeat split.
  - intros p H. rewrite (V _ H). destruct p as [|[]|n []|j []|n]; cbn in H; lia.
  - intros p q Hp Hq E. rewrite (V _ Hp), (V _ Hq) in E.
    destruct p as [|v|n v|j v|n], q as [|w|m w|l w|m]; cbn in Hp, Hq;
      try reflexivity; try destruct v; try destruct w; first [exfalso; lia|f_equal; lia].
  - intros b B.
    assert (C : b = 0 \/ b = 1 \/ b = 2 \/ (3 <= b < 3 + 2 * ge_nodes g)
                \/ (3 + 2 * ge_nodes g <= b < ge_fa g) \/ ge_fa g <= b) by lia.
    assert (Half : forall x, exists h w, x = 2 * h + (if w : bool then 1 else 0)).
    { intros x. exists (x / 2), (x mod 2 =? 1). pose proof (N.div_mod x 2 ltac:(lia)).
      pose proof (N.mod_lt x 2 ltac:(lia)). destruct (N.eqb_spec (x mod 2) 1); lia. }
    destruct C as [-> |[-> |[-> |[C|[C|C]]]]].
    + exists PMaster. now split.
    + exists (PMetaroot false). now split.
    + exists (PMetaroot true). now split.
    + destruct (Half (b - 3)) as (h & w & X).
      assert (P : exists_part k g (PImap h w)) by (cbn; destruct w; lia).
      exists (PImap h w). split; [exact P|]. rewrite (V _ P). destruct w; lia.
    + destruct (Half (b - (3 + 2 * ge_nodes g))) as (h & w & X).
      assert (P : exists_part k g (PInode (2 + h) w)) by (cbn; destruct w; lia).
      exists (PInode (2 + h) w). split; [exact P|]. rewrite (V _ P). destruct w; lia.
    + assert (P : exists_part k g (PAlloc (b - ge_fa g))) by (cbn; lia).
      exists (PAlloc (b - ge_fa g)). split; [exact P|]. rewrite (V _ P). lia.
Qed.

(** Every block with an allocation state (inode blocks and allocable blocks) has a bit in the imap:
    in the metaroot with an inline imap, otherwise in one of the imap nodes. *)
Theorem C14_imap_bit : forall b, ge_itab g <= b < ge_bc g ->
  if ge_inline g then b - ge_itab g < METAROOT_ENTRIES k
  else (b - ge_itab g) / IMAPNODE_ENTRIES k < ge_nodes g.
Proof using TY OK W1 W2.
  intros b B. pose proof itab_eq as IT. destruct (ge_inline g) eqn:E.
  - pose proof (gf_inl _ _ _ F) as I. rewrite E in I. symmetry in I. apply N.leb_le in I. lia.
  - pose proof (entries_ge k TY). apply N.div_lt_upper_bound; [lia|].
    pose proof (nodes_cover (ge_bc g - 3) (IMAPNODE_ENTRIES k) ltac:(lia)) as C.
    rewrite <- (nodes_eq E) in C. rewrite N.mul_add_distr_l in C. rewrite (N.mul_comm (IMAPNODE_ENTRIES k)). lia.
Qed.

(** Each imap node has its toggle bit inside the metaroot, if the volume is not too large for the
    metaroot (not checked by the program: see [C14_toggle_refuted]). *)
Theorem C14_toggle : ge_bc g - 3 <= METAROOT_ENTRIES k * (IMAPNODE_ENTRIES k + 2) -> ge_nodes g <= METAROOT_ENTRIES k.
Proof using TY OK W1. clear W2.
  intros H. destruct (ge_inline g) eqn:E; [rewrite (gf_nodes _ _ _ F), E; lia|].
  rewrite nodes_eq by auto. apply N.lt_succ_r. apply N.div_lt_upper_bound; [lia|].
  rewrite N.mul_succ_r, N.mul_comm. lia.
Qed.

(** The volume lies inside the sectors of the device given to it. *)
Theorem C14_inside : ge_bc g * k_bs k <= bi_scount i * bi_ssize i.
Proof using TY OK. clear W1 W2.
  rewrite <- (gf_bs _ _ _ F), (gf_bc _ _ _ F), N.mul_assoc, (N.mul_comm _ (2 ^ ge_shift g)), N.mul_assoc.
  apply N.mul_le_mono_r.
  transitivity (2 ^ ge_shift g * (bi_scount i / 2 ^ ge_shift g)).
  - apply N.mul_le_mono_l. unfold u32. apply N.mod_le. lia.
  - apply N.mul_div_le, N.pow_nonzero. lia.
Qed.

(** The geometry meets what the volume-level model ([FsState.cfg_ok]) assumes of it. *)
Theorem C14_volume_model (c : FsState.cfg) :
  FsState.BC c = ge_bc g -> FsState.ITAB c = ge_itab g -> FsState.ICNT c = k_icount k ->
  3 <= FsState.ITAB c /\ 1 <= FsState.ICNT c /\ FsState.FA c <= FsState.BC c /\ FsState.BC c <= UINT32_MAX
  /\ FsState.FA c = ge_fa g /\ FsState.NALLOC c = ge_alloc g.
Proof using TY OK W1 W2.
  intros B I C. unfold FsState.NALLOC, FsState.FA. rewrite B, I, C.
  pose proof itab_eq as IT. pose proof fa_eq as FAE. pose proof (gf_fabc _ _ _ F).
  pose proof (gf_ic _ _ _ F). pose proof (gf_alloc _ _ _ F) as AL.
  assert (BB : ge_bc g <= UINT32_MAX).
  { rewrite (gf_bc _ _ _ F). unfold u32, UINT32_MAX.
    pose proof (N.mod_lt (bi_scount i / 2 ^ ge_shift g) 4294967296 ltac:(lia)). lia. }
  rewrite AL, FAE, IT. repeat split; lia.
Qed.
End Layout.

(** The no-wrap conditions follow from bounds on the configuration: fewer than 2^32 - 2^19 blocks
    and fewer than 2^31 - 2^23 inodes. *)
Theorem C14_bounds : forall k i g, vconf_typed k -> RedVolInitGeometry k i = Some (Ok g) ->
  bi_scount i * bi_ssize i / k_bs k + 2 ^ 19 <= 2 ^ 32 -> k_icount k + 2 ^ 23 <= 2 ^ 31 ->
  ge_bc g + IMAPNODE_ENTRIES k < 4294967296 + 2 /\ ge_itab g + 2 * k_icount k < 4294967296.
Proof.
  intros k i g TY OK HB HI. pose proof (geometry_facts k i g TY OK) as F.
  pose proof (bs_ge k TY) as BS.
  assert (Q : bi_scount i * bi_ssize i / k_bs k = bi_scount i / 2 ^ ge_shift g).
  { rewrite <- (gf_bs _ _ _ F). rewrite (N.mul_comm (bi_scount i)). apply N.div_mul_cancel_l.
    - apply N.pow_nonzero. lia.
    - pose proof (gf_ss _ _ _ F). lia. }
  rewrite Q in HB. change (2 ^ 19) with 524288 in HB. change (2 ^ 32) with 4294967296 in HB.
  change (2 ^ 23) with 8388608 in HI. change (2 ^ 31) with 2147483648 in HI.
  assert (B : ge_bc g = bi_scount i / 2 ^ ge_shift g).
  { rewrite (gf_bc _ _ _ F). unfold u32. apply N.mod_small. lia. }
  assert (W1 : ge_bc g + IMAPNODE_ENTRIES k < 4294967296 + 2).
  { unfold IMAPNODE_ENTRIES. lia. }
  split; [exact W1|].
  rewrite (itab_eq k i g TY OK W1).
  destruct (ge_inline g) eqn:E.
  - rewrite (gf_nodes _ _ _ F), E. lia.
  - pose proof (nodes_small k i g TY OK W1 E) as S. pose proof (entries_ge k TY).
    assert (ge_nodes g * 898 <= ge_nodes g * (IMAPNODE_ENTRIES k + 2)) by (apply N.mul_le_mono_l; lia).
    lia.
Qed.

(** * RedBDevOpen: the volume lies on the media *)
(** If the media reports its geometry, an opened volume ends at or before the end of the media and
    has the media's sector size. *)
Theorem C14_on_media : forall k m i, vconf_typed k -> info_typed m ->
  RedBDevOpen k (GeoOk m) = Ok i -> k_soff k + k_scount k <= UINT64_MAX ->
  bi_ssize i = bi_ssize m /\ k_soff k + bi_scount i <= bi_scount m /\ info_typed i.
Proof.
  intros k m i [_ T1 T2 T3 _] [M1 M2] H W. unfold RedBDevOpen in H.
  destruct (N.eqb_spec (k_scount k) SECTOR_COUNT_AUTO) as [A|A].
  - cbn [orb negb andb] in H. destruct (negb (k_ssize k =? _) && _); [discriminate|].
    destruct (N.leb_spec (bi_scount m) (k_soff k)); [discriminate|]. injection H as <-.
    cbn. unfold info_typed. cbn. lia.
  - destruct (N.eqb_spec (k_ssize k) SECTOR_SIZE_AUTO) as [B|B]; cbn [orb negb andb] in H.
    + destruct (N.eqb_spec (k_scount k) (bi_scount m)) as [C|C]; [|discriminate]. cbn [orb negb andb] in H.
      destruct (negb (k_ssize k =? _) && _); [discriminate|].
      destruct (N.leb_spec (bi_scount m) (k_soff k)); [discriminate|]. injection H as <-.
      cbn. unfold info_typed. cbn. lia.
    + cbv zeta in H. cbn [bi_ssize bi_scount] in H.
      destruct (N.eqb_spec (bi_ssize m) (k_ssize k)) as [C|C]; cbn [andb] in H; [|discriminate H].
      unfold SECTOR_LIMIT, u64 in H. cbn [bi_scount] in H.
      rewrite N.mod_small in H by (unfold UINT64_MAX in *; lia).
      destruct (N.leb_spec (k_soff k + k_scount k) (bi_scount m)); [|discriminate]. injection H as <-.
      cbn. unfold info_typed. cbn. lia.
Qed.

(** * Concrete cases *)
(** 1024 sectors of 512 bytes at offset 64, 512-byte blocks, 100 inodes: inline imap. *)
Definition kA := mkVC 512 true true true 512 1024 64 100.
Example C14_witness_inline : vconf_typed kA
  /\ RedBDevOpen kA (GeoOk (mkBI 4096 512)) = Ok (mkBI 1024 512)
  /\ exists g, RedVolInitGeometry kA (mkBI 1024 512) = Some (Ok g)
      /\ ge_bc g + IMAPNODE_ENTRIES kA < 4294967296 + 2 /\ ge_itab g + 2 * k_icount kA < 4294967296
      /\ ge_inline g = true /\ ge_fa g = 203 /\ ge_alloc g = 821.
Proof.
  split; [|split; [reflexivity|eexists; split; [vm_compute; reflexivity|vm_compute; repeat split]]].
  split; try (vm_compute; intros; discriminate). exists 9. vm_compute. repeat split; try (intros; discriminate).
Qed.
(** 10 GB in 4096-byte blocks, 10000 inodes: external imap with 81 nodes. *)
Definition kB := mkVC 4096 true true true 512 20971520 0 10000.
Example C14_witness_external : vconf_typed kB
  /\ exists g, RedVolInitGeometry kB (mkBI 20971520 512) = Some (Ok g)
      /\ ge_bc g + IMAPNODE_ENTRIES kB < 4294967296 + 2 /\ ge_itab g + 2 * k_icount kB < 4294967296
      /\ ge_inline g = false /\ ge_nodes g = 81 /\ ge_itab g = 165 /\ ge_bc g = 2621440 /\ ge_shift g = 3
      /\ ge_bc g - 3 <= METAROOT_ENTRIES kB * (IMAPNODE_ENTRIES kB + 2).
Proof.
  split; [|eexists; split; [vm_compute; reflexivity|vm_compute; repeat split; try (intros; discriminate)]].
  split; try (vm_compute; intros; discriminate). exists 12. vm_compute. repeat split; try (intros; discriminate).
Qed.

(** * What is not true (findings) *)
(** The count of inodes wraps: 2^31 inodes are accepted on a volume of 1000 blocks, and inode 2 and
    the first allocable block share block 3. *)
Definition kW := mkVC 512 true true true 512 1000 0 2147483648.
Example C14_inode_wrap_refuted : vconf_typed kW /\ exists g, RedVolInitGeometry kW (mkBI 1000 512) = Some (Ok g)
  /\ exists_part kW g (PInode 2 false) /\ exists_part kW g (PAlloc 0)
  /\ place g (PInode 2 false) = place g (PAlloc 0).
Proof.
  split; [|eexists; split; [vm_compute; reflexivity|vm_compute; repeat split; try (intros; discriminate)]].
  split; try (vm_compute; intros; discriminate). exists 9. vm_compute. repeat split; try (intros; discriminate).
Qed.
(** The rounding in the number of imap nodes wraps: a volume of 2^32 - 1 blocks gets no imap node. *)
Definition kX := mkVC 512 true true true 512 4294967295 0 100.
Example C14_node_wrap_refuted : vconf_typed kX /\ exists g, RedVolInitGeometry kX (mkBI 4294967295 512) = Some (Ok g)
  /\ ge_inline g = false /\ ge_nodes g = 0.
Proof.
  split; [|eexists; split; [vm_compute; reflexivity|vm_compute; repeat split; try (intros; discriminate)]].
  split; try (vm_compute; intros; discriminate). exists 9. vm_compute. repeat split; try (intros; discriminate).
Qed.
(** A volume without any allocable block is accepted. *)
Definition kZ := mkVC 512 true true true 512 1003 0 500.
Example C14_no_space_refuted : vconf_typed kZ /\ exists g, RedVolInitGeometry kZ (mkBI 1003 512) = Some (Ok g) /\ ge_alloc g = 0.
Proof.
  split; [|eexists; split; [vm_compute; reflexivity|vm_compute; repeat split; try (intros; discriminate)]].
  split; try (vm_compute; intros; discriminate). exists 9. vm_compute. repeat split; try (intros; discriminate).
Qed.
(** A volume of 8 GB in 512-byte blocks has more imap nodes than the metaroot has toggle bits: the
    bits of the last nodes are read and written behind the end of the metaroot. *)
Definition kT := mkVC 512 true true true 512 16777216 0 100.
Example C14_toggle_refuted : vconf_typed kT /\ exists g, RedVolInitGeometry kT (mkBI 16777216 512) = Some (Ok g)
  /\ ge_bc g + IMAPNODE_ENTRIES kT < 4294967296 + 2 /\ ge_itab g + 2 * k_icount kT < 4294967296
  /\ METAROOT_ENTRIES kT < ge_nodes g.
Proof.
  split; [|eexists; split; [vm_compute; reflexivity|vm_compute; repeat split; try (intros; discriminate)]].
  split; try (vm_compute; intros; discriminate). exists 9. vm_compute. repeat split; try (intros; discriminate).
Qed.
