(** C09: the buffer cache is transparent.

    Whatever the number of buffers, the commands and their order, the volumes, and the I/O calls
    that fail, a client that keeps the rules of CacheSpec.allowed observes exactly what storage
    without a cache (CacheSpec.sstep) would give it. *)
From Verif Require Import Base Crc Endian Cache CacheSpec CacheP.
Ltac Zify.zify_post_hook ::= idtac.

(** A system: the configuration, the contents of the disks and the volumes' sequence numbers at
    start, and which I/O calls fail and what they leave behind. *)
Record sys := mkSys {
  y_nb : nat; y_bs : nat; y_nv : N; y_bc : N -> N; y_mounted : N -> bool;
  y_orc : N -> option (N -> list N); y_disk : N -> N -> list N; y_seq : N -> N }.
Record sys_ok (y : sys) : Prop := {
  yo_nb : (0 < y_nb y < 256)%nat;                                   (* buffer.c:36-46: uint8_t indices *)
  yo_bs : (16 <= y_bs y)%nat;
  yo_bc : forall v, v < y_nv y -> y_bc y v <= UINT32_MAX;           (* ulBlockCount is a uint32_t, and UINT32_MAX is BBLK_INVALID *)
  yo_orc : forall n j b, y_orc y n = Some j -> blk_ok (y_bs y) (j b);
  yo_disk : forall v b, blk_ok (y_bs y) (y_disk y v b);
  yo_seq : forall v, y_seq y v <= UINT64_MAX }.

Section Y.
Variable y : sys.
Definition yexec := exec (y_nb y) (y_bs y) (y_nv y) (y_bc y) (y_mounted y) (y_orc y).
Definition yallowed := allowed (y_bs y) (y_nv y) (y_bc y).
Definition ystep := sstep (y_nb y) (y_bs y) (y_bc y) (y_mounted y) (y_seq y).
(** an I/O call failed, or a sequence number ran out, between [c] and [c'] *)
Definition yfail (c c' : cst) : Prop :=
  (exists n, c_io c <= n < c_io c' /\ y_orc y n <> None) \/ (exists v, c_seq c' v = UINT64_MAX).

(** the states after any history of a client that keeps the rules *)
Inductive reach : cst -> spec -> Prop :=
| reach_init : reach (RedBufferInit (y_nb y) (y_bs y) (y_disk y) (y_seq y)) (spec0 (y_disk y))
| reach_step c s k o c' s' : reach c s -> yallowed s k -> yexec k c = (o, c') -> ystep (yfail c c') s k o s' -> reach c' s'.

(** one command of a history, with the states before and after *)
Definition step1 (c : cst) (s : spec) (k : cmd) (o : out) (c' : cst) (s' : spec) : Prop :=
  yallowed s k /\ yexec k c = (o, c') /\ ystep (yfail c c') s k o s'.

(** commands that change what block (v,b) holds *)
Definition stores (s : spec) (k : cmd) (v b : N) : Prop :=
  match k with
  | CGet v' b' _ new _ => new = true /\ v' = v /\ b' = b
  | CBranch v' _ b' => v' = v /\ b' = b
  | CPoke p _ | CDiscard _ p => exists h, s_hand s p = Some h /\ at_blk h v b
  | CDiscardRange v' st n => v' = v /\ st <= b < st + n
  | CDirectWrite v' st xs => v' = v /\ st <= b < st + lenN xs
  | _ => False
  end.
(** a history in which no command stores into (v,b) *)
Inductive quiet (v b : N) : cst -> spec -> cst -> spec -> Prop :=
| quiet_nil c s : quiet v b c s c s
| quiet_cons c s k o c1 s1 c2 s2 : step1 c s k o c1 s1 -> ~ stores s k v b -> quiet v b c1 s1 c2 s2 -> quiet v b c s c2 s2.

(** the contents of a block as stored, without the distinction between node and raw data *)
Definition payload (k : cont) : option (list N) :=
  match k with Unknown => None | Raw x => Some x | Node _ x => Some x end.

Hypothesis OK : sys_ok y.
Let yInv := Inv (y_nb y) (y_bs y) (y_nv y) (y_bc y) (y_mounted y) (y_seq y).

Lemma sstep_det E1 E2 s k o s1 s2 : ystep E1 s k o s1 -> ystep E2 s k o s2 -> s1 = s2.
Proof.
  unfold ystep. intros H1 H2. destruct H1; inversion H2; subst; try reflexivity; try contradiction;
    match goal with A : s_hand ?s ?p = Some ?a, B : s_hand ?s ?p = Some ?b |- _ => assert (a = b) by congruence; subst; reflexivity end.
Qed.

Lemma sim c s k o c' : yInv c s -> yallowed s k -> yexec k c = (o, c') ->
  exists s', ystep (yfail c c') s k o s' /\ yInv c' s'.
Proof.
  intros I A E. destruct (exec_sim _ _ _ _ _ _ (y_seq y) (yo_nb y OK) (yo_bs y OK) (yo_bc y OK) (yo_orc y OK) c s k o c' I A E) as [_ H].
  exact H.
Qed.
Lemma reach_inv c s : reach c s -> yInv c s.
Proof.
  induction 1.
  - apply (init_inv _ _ _ _ _ (y_orc y)); auto; try apply OK.
  - destruct (sim c s k o c' IHreach H0 H1) as (s2 & S2 & I2). now rewrite (sstep_det _ _ _ _ _ _ _ H2 S2).
Qed.

(** Every command a disciplined client issues, after any history, is answered as storage without a
    cache would answer it (or fails because the device failed). *)
Theorem C09_transparent c s k o c' :
  reach c s -> yallowed s k -> yexec k c = (o, c') ->
  exists s', ystep (yfail c c') s k o s' /\ reach c' s'.
Proof.
  intros R A E. destruct (sim c s k o c' (reach_inv c s R) A E) as (s' & S & I).
  exists s'. split; auto. econstructor; eauto.
Qed.

(** A buffer acquired for a block shows the contents of the block. *)
Theorem C09_get_contents c s v b t dirty p c' :
  reach c s -> yallowed s (CGet v b t false dirty) -> yexec (CGet v b t false dirty) c = (OBuf (Ok p), c') ->
  exists x, payload (s_cont s v b) = Some x
  /\ length (c_buf c' p) = length x
  /\ skipn 16 (c_buf c' p) = skipn 16 x
  /\ (t = TData -> c_buf c' p = x).
Proof.
  intros R A E. destruct (C09_transparent _ _ _ _ _ R A E) as (s' & S & R').
  inversion S; subst. destruct A as (A1 & A2 & A3). match goal with Q : b < y_bc y v |- _ => specialize (A3 Q) end.
  assert (P : yallowed (mkSpec (upd2 (s_cont s) v b (typed t (s_cont s v b))) (upd2 (s_used s) v b true)
    (upd2 (s_pend s) v b (s_pend s v b || dirty)) (updn (s_hand s) p (Some match s_hand s p with
      | Some h => mkHnd v b (h_cnt h + 1) (h_wr h || dirty) | None => mkHnd v b 1 dirty end))) (CPeek p)).
  { cbn. rewrite updn_same. discriminate. }
  destruct (C09_transparent _ _ _ _ _ R' P eq_refl) as (s2 & S2 & _). inversion S2; subst. clear S2.
  match goal with Q : s_hand _ p = Some ?h |- _ => cbn [s_hand] in Q; rewrite updn_same in Q; injection Q as <- end.
  assert (HV : forall (h : option hnd), h_vol (match h with Some h => mkHnd v b (h_cnt h + 1) (h_wr h || dirty) | None => mkHnd v b 1 dirty end) = v) by (intros []; reflexivity).
  assert (HB : forall (h : option hnd), h_blk (match h with Some h => mkHnd v b (h_cnt h + 1) (h_wr h || dirty) | None => mkHnd v b 1 dirty end) = b) by (intros []; reflexivity).
  rewrite HV, HB in *. cbn [s_cont] in *. rewrite upd2_same in *.
  destruct (s_cont s v b) as [|x|t' x]; [contradiction| |]; exists x; (split; [reflexivity|]); cbn [typed] in *.
  - destruct (is_meta t) eqn:M; cbn [shows] in *.
    + match goal with H : same_body _ _ |- _ => destruct H as [L B] end. repeat split; auto. intros ->. discriminate.
    + match goal with H : c_buf c' p = x |- _ => rewrite H end. auto.
  - cbn [shows] in *. match goal with H : same_body _ _ |- _ => destruct H as [L B] end. repeat split; auto.
    intros ->. subst t'. exfalso.
    pose proof (reach_inv _ _ R') as I.
    destruct (to_idx _ _ _ _ _ _ _ _ v p _ I (updn_same _ _ _) (HV _)) as (_ & Hp & V & E1 & E2 & _).
    pose proof (I_head _ _ _ _ _ _ _ _ I p Hp V) as (_ & _ & _ & _ & K & _).
    rewrite HB in E2. rewrite E1, E2 in K. cbn [s_cont] in K. rewrite upd2_same in K. cbn in K. destruct K as (K1 & K2 & _). rewrite K1 in K2. discriminate.
Qed.

(** Acquiring a block succeeds unless the device fails, all buffers are held by the client, or the
    block, last written by somebody else, is not a valid node of the requested type. *)
Theorem C09_get_succeeds c s v b t (new dirty : bool) o c' :
  reach c s -> yallowed s (CGet v b t new dirty) -> yexec (CGet v b t new dirty) c = (o, c') ->
  b < y_bc y v -> ~ yfail c c' ->
  (held s v b \/ exists p, (p < y_nb y)%nat /\ s_hand s p = None) ->
  (new = false -> forall x, s_cont s v b = Raw x -> is_meta t = true -> surely_valid (y_mounted y) (y_seq y) v t x) ->
  exists p, o = OBuf (Ok p).
Proof.
  intros R A E Hb NF HB SV. destruct (C09_transparent _ _ _ _ _ R A E) as (s' & S & _).
  inversion S; subst; eauto; exfalso.
  - match goal with Q : y_bc y v <= b |- _ => lia end.
  - destruct HB as [HB|(p & Hp & HN)]; [contradiction|]. match goal with Q : forall p, _ -> s_hand _ p <> None |- _ => now apply (Q p Hp) end.
  - match goal with Q : ~ surely_valid _ _ _ _ _ |- _ => apply Q end. eapply SV; eauto.
  - contradiction.
Qed.

(** Commands that do not store into a block leave its contents alone. *)
Theorem C09_frame c s k o c' s' v b : step1 c s k o c' s' -> ~ stores s k v b ->
  payload (s_cont s' v b) = payload (s_cont s v b).
Proof.
  intros (A & E & S) NS.
  inversion S; subst; auto; cbn [s_cont]; unfold upd2, updr.
  - destruct (N.eqb_spec v v0) as [->|]; [|reflexivity]. destruct (N.eqb_spec b b0) as [->|]; [|reflexivity]. cbn [andb].
    destruct new; [exfalso; apply NS; cbn; auto|]. destruct (s_cont s v0 b0); cbn; auto. destruct (is_meta t); auto.
  - destruct (N.eqb_spec v v0) as [->|]; [|reflexivity]. destruct (N.eqb_spec b b') as [->|]; [|reflexivity]. exfalso; apply NS; cbn; auto.
  - destruct A as (h' & A1 & A2 & _). assert (h' = h) by congruence. subst h'.
    destruct (N.eqb_spec v v0) as [->|]; [|reflexivity]. destruct (N.eqb_spec b (h_blk h)) as [->|]; [|reflexivity].
    exfalso. apply NS. cbn. exists h. repeat split; auto.
  - destruct (N.eqb_spec v v0) as [->|]; [|reflexivity]. destruct (N.leb_spec st b); [|reflexivity]. destruct (N.ltb_spec b (st + n)); [|reflexivity].
    exfalso. apply NS. cbn. auto.
  - destruct (N.eqb_spec v (h_vol h)) as [->|]; [|reflexivity]. destruct (N.eqb_spec b (h_blk h)) as [->|]; [|reflexivity].
    exfalso. apply NS. cbn. exists h. repeat split; auto.
  - destruct (N.eqb_spec v v0) as [->|]; [|reflexivity]. destruct (N.leb_spec st b); [|reflexivity]. destruct (N.ltb_spec b (st + lenN xs)); [|reflexivity].
    exfalso. apply NS. cbn. auto.
  - destruct (N.eqb_spec v v0) as [->|]; [|reflexivity]. destruct (N.leb_spec st b); [|reflexivity]. destruct (N.ltb_spec b (st + lenN xs)); [|reflexivity].
    exfalso. apply NS. cbn. auto.
Qed.

(** The headline: bytes [x] written through a buffer pointer of block (v,b) are what any later
    acquisition of (v,b) shows, whatever happened in between, as long as nothing else was stored
    into (v,b): exactly for a data block, and up to the 16 header bytes for a metadata node. *)
Theorem C09_last_store c s p h x c1 s1 o1 c2 s2 t dirty q c3 :
  reach c s -> s_hand s p = Some h ->
  step1 c s (CPoke p x) o1 c1 s1 ->
  quiet (h_vol h) (h_blk h) c1 s1 c2 s2 ->
  yallowed s2 (CGet (h_vol h) (h_blk h) t false dirty) ->
  yexec (CGet (h_vol h) (h_blk h) t false dirty) c2 = (OBuf (Ok q), c3) ->
  length (c_buf c3 q) = length x /\ skipn 16 (c_buf c3 q) = skipn 16 x /\ (t = TData -> c_buf c3 q = x).
Proof.
  intros R HS P Q A E.
  assert (R1 : reach c1 s1) by (destruct P as (P1 & P2 & P3); econstructor; eauto).
  assert (L1 : payload (s_cont s1 (h_vol h) (h_blk h)) = Some x).
  { destruct P as (P1 & P2 & P3). inversion P3; subst. assert (h0 = h) by congruence. subst h0. cbn [s_cont]. rewrite upd2_same.
    destruct (s_cont s (h_vol h) (h_blk h)); reflexivity. }
  clear R HS P c s p o1.
  assert (R2 : reach c2 s2 /\ payload (s_cont s2 (h_vol h) (h_blk h)) = Some x).
  { induction Q; auto. apply IHQ; auto. destruct H as (P1 & P2 & P3); econstructor; eauto.
    rewrite <- L1. eapply C09_frame; eauto. }
  destruct R2 as [R2 L2]. destruct (C09_get_contents _ _ _ _ _ _ _ _ R2 A E) as (x' & X1 & X2 & X3 & X4).
  rewrite L2 in X1. injection X1 as <-. auto.
Qed.

(** A successful flush has put the contents of every block of the range on the disk. *)
Theorem C09_flush c s v st n c' :
  reach c s -> v < y_nv y -> yexec (CFlush v st n) c = (ODone (Ok tt), c') ->
  forall b, st <= b < st + n -> shows (s_cont s v b) (c_disk c' v b).
Proof.
  intros R Hv E b Hb. unfold yexec in E. cbn [exec] in E.
  destruct (RedBufferFlushRange (y_nb y) (y_nv y) (y_bc y) (y_orc y) v st n c) as [r c1] eqn:F. injection E as -> ->.
  destruct (bad_range (y_bc y) v st n) eqn:B.
  { unfold RedBufferFlushRange in F. rewrite B in F. discriminate. }
  apply (bad_range_ok (y_nb y) (y_nv y) _ (y_mounted y) (y_seq y) (yo_nb y OK)) in B.
  destruct (flush_core _ _ _ _ (y_mounted y) _ (y_seq y) (yo_nb y OK) (yo_bs y OK) (yo_bc y OK) (yo_orc y OK) c s v st n (Ok tt) c' (reach_inv c s R) Hv B F) as [_ I].
  assert (D : disk_has (y_mounted y) c' v b (s_cont s v b)).
  { destruct B as (B1 & B2 & B3).
    refine (clean_disk _ _ _ _ _ _ _ (yo_nb y OK) (yo_bs y OK) (yo_bc y OK) (yo_orc y OK) _ _ v b I Hv _ _).
    - lia.
    - cbn [s_pend]. unfold updr. rewrite N.eqb_refl, (proj2 (N.leb_le st b)), (proj2 (N.ltb_lt b (st + n))) by lia. reflexivity. }
  destruct (s_cont s v b); cbn in *; auto. tauto.
Qed.
End Y.
