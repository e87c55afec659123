(** The pointer tree of an inode: pointer paths, logical block ranges and the coordinates of a
    logical block.  Independent of the code; used to state the tree invariants. *)
From Verif Require Import Base FsState.
Ltac Zify.zify_post_hook ::= idtac.

(** A pointer slot of an inode: [P1 e] is entry e of the inode, [P2 e k] is entry k of the node that
    entry e refers to, [P3 e d k] is entry k of the node that [P2 e d] refers to. *)
Inductive ptr := P1 (e : N) | P2 (e k : N) | P3 (e d k : N).

Definition ptr_eqb (p q : ptr) : bool :=
  match p, q with
  | P1 a, P1 b => a =? b
  | P2 a k, P2 b j => (a =? b) && (k =? j)
  | P3 a d k, P3 b c j => (a =? b) && (d =? c) && (k =? j)
  | _, _ => false
  end.
Lemma ptr_eqb_spec p q : reflect (p = q) (ptr_eqb p q).
Proof.
  destruct p, q; cbn [ptr_eqb]; try (right; congruence);
  repeat match goal with |- context[?a =? ?b] => destruct (N.eqb_spec a b) end; cbn [andb];
  try (left; congruence); right; congruence.
Qed.
Lemma ptr_eqb_refl p : ptr_eqb p p = true.
Proof. destruct (ptr_eqb_spec p p); congruence. Qed.

(** Pointer maps: inode number -> slot -> block number (0 = sparse). *)
Definition pmap := N -> ptr -> N.
Definition pupd (pm : pmap) (i : N) (p : ptr) (v : N) : pmap :=
  fun j q => if (j =? i) && ptr_eqb q p then v else pm j q.
Lemma pupd_same pm i p v : pupd pm i p v i p = v.
Proof. unfold pupd. now rewrite N.eqb_refl, ptr_eqb_refl. Qed.
Lemma pupd_other pm i p v j q : (j <> i \/ q <> p) -> pupd pm i p v j q = pm j q.
Proof.
  unfold pupd. destruct (N.eqb_spec j i), (ptr_eqb_spec q p); cbn [andb]; auto.
  intros [H|H]; congruence.
Qed.
Lemma pupd_ino pm i p v j q : j <> i -> pupd pm i p v j q = pm j q.
Proof. intros; apply pupd_other; auto. Qed.
Lemma pupd_ptr pm i p v j q : q <> p -> pupd pm i p v j q = pm j q.
Proof. intros; apply pupd_other; auto. Qed.

Section Tree.
Variable g : cfg.
Hypothesis OK : cfg_ok g.

(** height of an inode entry: 0 direct, 1 indirect, 2 double indirect *)
Definition hgt (e : N) : N := if e <? NDIR g then 0 else if e <? NDIR g + NIND g then 1 else 2.

Lemma hgt_le e : hgt e <= 2.
Proof. unfold hgt. destruct (e <? NDIR g), (e <? NDIR g + NIND g); lia. Qed.

(** height of what the slot refers to: 0 data block, 1 indirect node, 2 double indirect node *)
Definition phgt (p : ptr) : N :=
  match p with P1 e => hgt e | P2 e _ => hgt e - 1 | P3 _ _ _ => 0 end.

Definition vptr (p : ptr) : Prop :=
  match p with
  | P1 e => e < IE g
  | P2 e k => e < IE g /\ 1 <= hgt e /\ k < PE g
  | P3 e d k => e < IE g /\ hgt e = 2 /\ d < PE g /\ k < PE g
  end.

Definition child (p : ptr) (k : N) : ptr :=
  match p with P1 e => P2 e k | P2 e d => P3 e d k | P3 e d j => P3 e d j end.

Lemma child_inj p q k j : 0 < phgt p -> 0 < phgt q -> child p k = child q j -> p = q /\ k = j.
Proof. destruct p, q; cbn; intros; try lia; try congruence; inversion H1; auto. Qed.
Lemma child_vptr p k : vptr p -> 0 < phgt p -> k < PE g -> vptr (child p k).
Proof.
  destruct p as [e|e ? |]; cbn; intros V H Hk; try lia; pose proof (hgt_le e); repeat split; lia.
Qed.
Lemma child_phgt p k : vptr p -> 0 < phgt p -> phgt (child p k) = phgt p - 1.
Proof. destruct p as [e|e ? |]; cbn; intros V H; try lia; pose proof (hgt_le e); lia. Qed.
Lemma child_ne p k : 0 < phgt p -> child p k <> p.
Proof. destruct p; cbn; intros; try lia; congruence. Qed.

(** first logical block and number of logical blocks below a slot *)
Definition efirst (e : N) : N :=
  if e <? NDIR g then e
  else if e <? NDIR g + NIND g then NDIR g + (e - NDIR g) * PE g
  else NDIR g + NIND g * PE g + (e - NDIR g - NIND g) * (PE g * PE g).
Definition lfirst (p : ptr) : N :=
  match p with
  | P1 e => efirst e
  | P2 e k => efirst e + k * (if hgt e =? 2 then PE g else 1)
  | P3 e d k => efirst e + d * PE g + k
  end.
Definition hspan (h : N) : N := if h =? 0 then 1 else if h =? 1 then PE g else PE g * PE g.
Definition span (p : ptr) : N := hspan (phgt p).

(** coordinates of a logical block *)
Definition co_e (l : N) : N :=
  if l <? NDIR g then l
  else if l <? INODE_INDIR_BLOCKS g + NDIR g then (l - NDIR g) / PE g + NDIR g
  else (l - NDIR g - INODE_INDIR_BLOCKS g) / DINDIR_DATA_BLOCKS g + NDIR g + NIND g.
Definition co_de (l : N) : option N :=
  if l <? NDIR g then None
  else if l <? INODE_INDIR_BLOCKS g + NDIR g then None
  else Some ((l - NDIR g - INODE_INDIR_BLOCKS g) mod DINDIR_DATA_BLOCKS g / PE g).
Definition co_ie (l : N) : option N :=
  if l <? NDIR g then None
  else if l <? INODE_INDIR_BLOCKS g + NDIR g then Some ((l - NDIR g) mod PE g)
  else Some ((l - NDIR g - INODE_INDIR_BLOCKS g) mod DINDIR_DATA_BLOCKS g mod PE g).

(** slots of the double indirect node, the indirect node and the data block on the way to block l *)
Definition pD (l : N) : ptr := P1 (co_e l).
Definition pI (l : N) : ptr := match co_de l with Some d => P2 (co_e l) d | None => P1 (co_e l) end.
Definition pT (l : N) : ptr :=
  match co_ie l with
  | None => P1 (co_e l)
  | Some k => child (pI l) k
  end.

Lemma mod_ub a b : 0 < b -> a mod b < b.
Proof. intros; apply N.mod_lt; lia. Qed.
Lemma div_eq a b : 0 < b -> a = b * (a / b) + a mod b.
Proof. intros; apply N.div_mod'; lia. Qed.
Lemma div_uniq a b q r : r < b -> a = b * q + r -> a / b = q.
Proof. intros; symmetry; eapply N.div_unique; eauto. Qed.
Lemma mod_uniq a b q r : r < b -> a = b * q + r -> a mod b = r.
Proof. intros; symmetry; eapply N.mod_unique; eauto. Qed.

(** The total number of addressable blocks never exceeds the capacity of the tree. *)
Lemma data_blocks_cap : INODE_DATA_BLOCKS g <= NDIR g + NIND g * PE g + DINDIR_POINTERS g * (PE g * PE g).
Proof.
  unfold INODE_DATA_BLOCKS, INODE_INDIR_BLOCKS, INODE_DINDIR_BLOCKS.
  destruct (N.leb_spec (DINDIR_POINTERS_MAX g) (DINDIR_POINTERS g)); [|unfold DINDIR_DATA_BLOCKS; lia].
  pose proof (ok_PE g OK) as HP.
  assert (HQ : 0 < DINDIR_DATA_BLOCKS g) by (unfold DINDIR_DATA_BLOCKS; nia).
  assert (INODE_DINDIR_BLOCKS_MAX g <= DINDIR_POINTERS_MAX g * DINDIR_DATA_BLOCKS g).
  { unfold DINDIR_POINTERS_MAX. pose proof (div_eq (INODE_DINDIR_BLOCKS_MAX g) _ HQ).
    pose proof (mod_ub (INODE_DINDIR_BLOCKS_MAX g) _ HQ).
    destruct (N.eqb_spec (INODE_DINDIR_BLOCKS_MAX g mod DINDIR_DATA_BLOCKS g) 0); nia. }
  fold (DINDIR_DATA_BLOCKS g). nia.
Qed.

Lemma data_blocks_dir : NDIR g + INODE_INDIR_BLOCKS g <= INODE_DATA_BLOCKS g.
Proof. unfold INODE_DATA_BLOCKS. lia. Qed.

Inductive co_case (l : N) : Prop :=
| CoDir : l < NDIR g -> co_e l = l -> co_de l = None -> co_ie l = None -> hgt (co_e l) = 0 ->
    efirst (co_e l) = l -> pT l = P1 l -> co_case l
| CoInd k : k < PE g -> NDIR g <= l < NDIR g + INODE_INDIR_BLOCKS g ->
    NDIR g <= co_e l < NDIR g + NIND g ->
    hgt (co_e l) = 1 -> co_de l = None -> co_ie l = Some k -> l = efirst (co_e l) + k ->
    efirst (co_e l) = NDIR g + (co_e l - NDIR g) * PE g ->
    pI l = P1 (co_e l) -> pT l = P2 (co_e l) k -> co_case l
| CoDin d k : d < PE g -> k < PE g -> NDIR g + INODE_INDIR_BLOCKS g <= l ->
    NDIR g + NIND g <= co_e l < IE g ->
    hgt (co_e l) = 2 -> co_de l = Some d -> co_ie l = Some k -> l = efirst (co_e l) + d * PE g + k ->
    efirst (co_e l) = NDIR g + NIND g * PE g + (co_e l - NDIR g - NIND g) * (PE g * PE g) ->
    pI l = P2 (co_e l) d -> pT l = P3 (co_e l) d k -> co_case l.

Lemma co_cases l : l < INODE_DATA_BLOCKS g -> co_case l.
Proof.
  intros Hl. pose proof (ok_PE g OK) as HP. pose proof data_blocks_cap as HC.
  destruct (N.lt_ge_cases l (NDIR g)) as [H1|H1].
  - assert (E : co_e l = l) by (unfold co_e; destruct (N.ltb_spec l (NDIR g)); auto; lia).
    apply CoDir; auto; unfold pT, co_de, co_ie, hgt, efirst; rewrite ?E;
      destruct (N.ltb_spec l (NDIR g)); try lia; auto.
  - destruct (N.lt_ge_cases l (INODE_INDIR_BLOCKS g + NDIR g)) as [H2|H2].
    + assert (E : co_e l = (l - NDIR g) / PE g + NDIR g).
      { unfold co_e. destruct (N.ltb_spec l (NDIR g)); [lia|].
        destruct (N.ltb_spec l (INODE_INDIR_BLOCKS g + NDIR g)); [auto|lia]. }
      assert (Ed : co_de l = None).
      { unfold co_de. destruct (N.ltb_spec l (NDIR g)); [lia|].
        destruct (N.ltb_spec l (INODE_INDIR_BLOCKS g + NDIR g)); [auto|lia]. }
      assert (Ei : co_ie l = Some ((l - NDIR g) mod PE g)).
      { unfold co_ie. destruct (N.ltb_spec l (NDIR g)); [lia|].
        destruct (N.ltb_spec l (INODE_INDIR_BLOCKS g + NDIR g)); [auto|lia]. }
      pose proof (div_eq (l - NDIR g) (PE g) HP) as D. pose proof (mod_ub (l - NDIR g) (PE g) HP) as U.
      assert (B : co_e l < NDIR g + NIND g).
      { rewrite E. unfold INODE_INDIR_BLOCKS in H2.
        assert ((l - NDIR g) / PE g < NIND g) by (apply N.div_lt_upper_bound; [now apply N.neq_0_lt_0|]; clear - H1 H2; lia). clear - H; lia. }
      assert (LB : NDIR g <= co_e l) by (rewrite E; apply N.le_add_l).
      assert (Ef : efirst (co_e l) = NDIR g + (co_e l - NDIR g) * PE g).
      { unfold efirst. destruct (N.ltb_spec (co_e l) (NDIR g)); [lia|].
        destruct (N.ltb_spec (co_e l) (NDIR g + NIND g)); [auto|lia]. }
      apply CoInd with ((l - NDIR g) mod PE g); auto; try (clear - H1 H2 B LB; lia).
      * unfold hgt. destruct (N.ltb_spec (co_e l) (NDIR g)); [lia|].
        destruct (N.ltb_spec (co_e l) (NDIR g + NIND g)); [auto|lia].
      * rewrite Ef, E. replace ((l - NDIR g) / PE g + NDIR g - NDIR g) with ((l - NDIR g) / PE g) by lia. clear - D H1 H2.
        revert D. generalize ((l - NDIR g) / PE g) ((l - NDIR g) mod PE g). intros; lia.
      * unfold pI. now rewrite Ed.
      * unfold pT, pI. now rewrite Ei, Ed.
    + set (off := l - NDIR g - INODE_INDIR_BLOCKS g).
      assert (E : co_e l = off / DINDIR_DATA_BLOCKS g + NDIR g + NIND g).
      { unfold co_e. destruct (N.ltb_spec l (NDIR g)); [lia|].
        destruct (N.ltb_spec l (INODE_INDIR_BLOCKS g + NDIR g)); [lia|auto]. }
      assert (Ed : co_de l = Some (off mod DINDIR_DATA_BLOCKS g / PE g)).
      { unfold co_de. destruct (N.ltb_spec l (NDIR g)); [lia|].
        destruct (N.ltb_spec l (INODE_INDIR_BLOCKS g + NDIR g)); [lia|auto]. }
      assert (Ei : co_ie l = Some (off mod DINDIR_DATA_BLOCKS g mod PE g)).
      { unfold co_ie. destruct (N.ltb_spec l (NDIR g)); [lia|].
        destruct (N.ltb_spec l (INODE_INDIR_BLOCKS g + NDIR g)); [lia|auto]. }
      assert (HQ : 0 < DINDIR_DATA_BLOCKS g) by (unfold DINDIR_DATA_BLOCKS; nia).
      pose proof (div_eq off _ HQ) as D. pose proof (mod_ub off _ HQ) as U.
      pose proof (div_eq (off mod DINDIR_DATA_BLOCKS g) _ HP) as D2.
      pose proof (mod_ub (off mod DINDIR_DATA_BLOCKS g) _ HP) as U2.
      assert (B : co_e l < IE g).
      { rewrite E. assert (off / DINDIR_DATA_BLOCKS g < DINDIR_POINTERS g).
        { apply N.div_lt_upper_bound; [now apply N.neq_0_lt_0|]. unfold off, INODE_INDIR_BLOCKS, DINDIR_DATA_BLOCKS in *. clear - Hl HC H1 H2. lia. }
        unfold DINDIR_POINTERS in H. clear - H. generalize dependent (off / DINDIR_DATA_BLOCKS g). lia. }
      assert (LB : NDIR g + NIND g <= co_e l) by (rewrite E, <- N.add_assoc; apply N.le_add_l).
      assert (Ef : efirst (co_e l) = NDIR g + NIND g * PE g + (co_e l - NDIR g - NIND g) * (PE g * PE g)).
      { unfold efirst. destruct (N.ltb_spec (co_e l) (NDIR g)); [lia|].
        destruct (N.ltb_spec (co_e l) (NDIR g + NIND g)); [lia|auto]. }
      apply CoDin with (off mod DINDIR_DATA_BLOCKS g / PE g) (off mod DINDIR_DATA_BLOCKS g mod PE g); auto; try (clear - H1 H2 B LB; lia).
      * apply N.div_lt_upper_bound; [now apply N.neq_0_lt_0|]. exact U.
      * unfold hgt. destruct (N.ltb_spec (co_e l) (NDIR g)); [lia|].
        destruct (N.ltb_spec (co_e l) (NDIR g + NIND g)); [lia|auto].
      * rewrite Ef, E.
        replace (off / DINDIR_DATA_BLOCKS g + NDIR g + NIND g - NDIR g - NIND g) with (off / DINDIR_DATA_BLOCKS g) by lia.
        clear - D D2 H1 H2. fold (DINDIR_DATA_BLOCKS g).
        assert (X : l = NDIR g + NIND g * PE g + off) by (clear D D2; unfold off, INODE_INDIR_BLOCKS in *; revert H1 H2; clear;
          generalize (NIND g * PE g); intros; lia).
        clearbody off. clear H1 H2. revert D D2 X. generalize (off mod DINDIR_DATA_BLOCKS g).
        generalize (off / DINDIR_DATA_BLOCKS g). intros q r. generalize (r / PE g) (r mod PE g). intros; lia.
      * unfold pI. now rewrite Ed.
      * unfold pT, pI. now rewrite Ei, Ed.
Qed.

Lemma pT_vptr l : l < INODE_DATA_BLOCKS g -> vptr (pT l).
Proof.
  intros H. pose proof (ok_IE g OK). pose proof (ok_PE g OK).
  destruct (co_cases l H) as [? ? ? ? ? ? E|? ? ? ? ? ? ? ? ? ? E|? ? ? ? ? ? ? ? ? ? ? ? E]; rewrite E; cbn;
    repeat split; lia.
Qed.
Lemma pT_phgt l : l < INODE_DATA_BLOCKS g -> phgt (pT l) = 0.
Proof.
  intros H. destruct (co_cases l H) as [? Ee ? ? Hh ? E|? ? ? ? Hh ? ? ? ? ? E|? ? ? ? ? ? ? ? ? ? ? ? E];
    rewrite E; cbn; try lia. now rewrite <- Ee at 1.
Qed.
Lemma lfirst_pT l : l < INODE_DATA_BLOCKS g -> lfirst (pT l) = l.
Proof.
  intros H. destruct (co_cases l H) as [? Ee ? ? Hh ? E|? ? ? ? Hh ? ? ? ? ? E|? ? ? ? ? ? ? ? ? ? ? ? E];
    rewrite E; cbn [lfirst]; try lia.
  - now rewrite <- Ee at 1.
  - rewrite Hh. change (1 =? 2) with false. cbn iota. lia.
Qed.
Lemma pT_inj l m : l < INODE_DATA_BLOCKS g -> m < INODE_DATA_BLOCKS g -> pT l = pT m -> l = m.
Proof. intros Hl Hm E. rewrite <- (lfirst_pT l), <- (lfirst_pT m); auto. now rewrite E. Qed.


Inductive hcase (e : N) : Prop :=
| HC0 : e < NDIR g -> hgt e = 0 -> efirst e = e -> hcase e
| HC1 : NDIR g <= e < NDIR g + NIND g -> hgt e = 1 -> efirst e = NDIR g + (e - NDIR g) * PE g -> hcase e
| HC2 : NDIR g + NIND g <= e -> hgt e = 2 ->
    efirst e = NDIR g + NIND g * PE g + (e - NDIR g - NIND g) * (PE g * PE g) -> hcase e.
Lemma hcases e : hcase e.
Proof.
  destruct (N.lt_ge_cases e (NDIR g)); [apply HC0|destruct (N.lt_ge_cases e (NDIR g + NIND g)); [apply HC1|apply HC2]];
    auto; unfold hgt, efirst; destruct (N.ltb_spec e (NDIR g)), (N.ltb_spec e (NDIR g + NIND g)); auto; lia.
Qed.

(** Every valid data slot within the maximum is the slot of its logical block. *)
Lemma data_slot p : vptr p -> phgt p = 0 -> pT (lfirst p) = p.
Proof.
  pose proof (ok_PE g OK) as HP. intros V Hp. destruct p as [e|e k|e d k]; cbn in V, Hp.
  - destruct (hcases e) as [H Hh Ef|H Hh Ef|H Hh Ef]; try lia. cbn. rewrite Ef.
    unfold pT, co_ie, co_e. destruct (N.ltb_spec e (NDIR g)); [auto|lia].
  - destruct V as (V1 & V2 & V3). destruct (hcases e) as [H Hh Ef|H Hh Ef|H Hh Ef]; try lia.
    cbn. rewrite Hh, Ef. change (1 =? 2) with false. cbn iota.
    set (l := NDIR g + (e - NDIR g) * PE g + k * 1).
    assert (l < INODE_INDIR_BLOCKS g + NDIR g) by (unfold l, INODE_INDIR_BLOCKS; nia).
    assert (NDIR g <= l) by (unfold l; lia).
    assert (Hd : (l - NDIR g) / PE g = e - NDIR g) by (apply div_uniq with k; auto; unfold l; nia).
    assert (Hm : (l - NDIR g) mod PE g = k) by (apply mod_uniq with (e - NDIR g); auto; unfold l; nia).
    unfold pT, pI, co_ie, co_de, co_e. destruct (N.ltb_spec l (NDIR g)); [lia|].
    destruct (N.ltb_spec l (INODE_INDIR_BLOCKS g + NDIR g)); [|lia]. rewrite Hd, Hm. cbn. f_equal. lia.
  - destruct V as (V1 & V2 & V3 & V4). destruct (hcases e) as [H Hh Ef|H Hh Ef|H Hh Ef]; try lia.
    cbn. rewrite Ef.
    set (l := NDIR g + NIND g * PE g + (e - NDIR g - NIND g) * (PE g * PE g) + d * PE g + k).
    assert (NDIR g + INODE_INDIR_BLOCKS g <= l) by (unfold l, INODE_INDIR_BLOCKS; nia).
    assert (R : d * PE g + k < PE g * PE g) by nia.
    set (o := l - NDIR g - INODE_INDIR_BLOCKS g).
    assert (Ho : o = (PE g * PE g) * (e - NDIR g - NIND g) + (d * PE g + k)).
    { unfold o, l, INODE_INDIR_BLOCKS. clear. generalize (e - NDIR g - NIND g) (NIND g * PE g). intros a b.
      generalize (PE g). intros. lia. }
    assert (Hd : o / DINDIR_DATA_BLOCKS g = e - NDIR g - NIND g) by (apply div_uniq with (d * PE g + k); auto).
    assert (Hm : o mod DINDIR_DATA_BLOCKS g = d * PE g + k) by (apply mod_uniq with (e - NDIR g - NIND g); auto).
    assert (Hd2 : (d * PE g + k) / PE g = d) by (apply div_uniq with k; auto; lia).
    assert (Hm2 : (d * PE g + k) mod PE g = k) by (apply mod_uniq with d; auto; lia).
    unfold pT, pI, co_ie, co_de, co_e. fold o. destruct (N.ltb_spec l (NDIR g)); [lia|].
    destruct (N.ltb_spec l (INODE_INDIR_BLOCKS g + NDIR g)); [lia|]. rewrite Hd, Hm, Hd2, Hm2. cbn. f_equal. lia.
Qed.

(** The children of a node partition its range. *)
Lemma lfirst_child p k : vptr p -> 0 < phgt p -> lfirst (child p k) = lfirst p + k * hspan (phgt p - 1).
Proof.
  destruct p as [e|e d|e d j]; cbn; intros V H; try lia.
  - pose proof (hgt_le e). destruct (N.eqb_spec (hgt e) 2).
    + rewrite e0. reflexivity.
    + replace (hgt e) with 1 by lia. reflexivity.
  - destruct V as (V1 & V2 & V3). pose proof (hgt_le e). assert (E : hgt e = 2) by lia. rewrite E.
    change (hspan (2 - 1 - 1)) with 1. change (2 =? 2) with true. cbn iota. lia.
Qed.
End Tree.
