(** Concrete metaroots: the hypotheses of the theorems of PropMeta.v are satisfiable, and two
    counterexamples. *)
From Verif Require Import Base Endian Crc Cache Metaroot MetaSpec MetarootP PropMeta.
Ltac Zify.zify_post_hook ::= idtac.

(** blocks of 64 bytes, sectors of 32 bytes *)
Definition BS : nat := 64.
Definition SS : nat := 32.
(** a working metaroot in memory: [f] free blocks, next block [n], bitmap bytes [b] in the second sector *)
Definition work (f n b : N) : list N :=
  repeat 0 20 ++ le_bytes 4 f ++ le_bytes 4 7 ++ le_bytes 4 n ++ repeat b 32.
Definition seal sw q w : list N := mr_seal BS SS true sw q w.
(** what a torn write leaves: the first or the second sector is new *)
Definition tear1 (old new : list N) : list N := firstn 32 new ++ skipn 32 old.
Definition tear2 (old new : list N) : list N := firstn 32 old ++ skipn 32 new.
Definition off_state (d0 d1 : list N) : bst := mkB (fun _ => []) false 3 false false (fun i => if i then d1 else d0).
(** a mounted state with working metaroot [w] in slot 0, and the metaroot 6 in slot 1 *)
Definition on_state sw q d0 w : bst :=
  mkB (fun _ => w) false q true false (fun i => if i then seal sw 6 (work 90 11 1) else d0).

Lemma bytes_dec x : forallb (fun b => b <? 256) x = true -> bytes_ok x.
Proof. intros H. unfold bytes_ok. apply Forall_forall. rewrite forallb_forall in H. intros b I. apply N.ltb_lt, H, I. Qed.
Lemma blocks_dec d : forallb (fun i => (length (d i) =? BS)%nat && forallb (fun b => b <? 256) (d i)) [true; false] = true -> blocks_ok BS d.
Proof.
  cbn. rewrite !andb_true_iff. intros ((A & A') & (B & B') & _) [|]; split; try (now apply Nat.eqb_eq); now apply bytes_dec.
Qed.
Definition usable_b sw (x : list N) : bool :=
  (fld sw x 0 4 =? 0x4154454D) && (fld sw x 16 4 =? checksum (at_ (zeroed x) 8 (SS - 8))) && (fld sw x 4 4 =? checksum (skipn 8 (zeroed x))).
Lemma usable_dec sw x : usable_b sw x = true <-> usable SS sw x.
Proof. unfold usable_b, usable, sector_ok. rewrite !andb_true_iff, !N.eqb_eq. tauto. Qed.
Lemma at_tail (x : list N) k n : (length x <= k)%nat -> at_ x k n = [].
Proof. intros. unfold at_. rewrite skipn_all2 by lia. apply firstn_nil. Qed.
Lemma torn_dec old new t : length old = 64%nat -> length new = 64%nat -> length t = 64%nat ->
  (at_ t 0 32 = at_ old 0 32 \/ at_ t 0 32 = at_ new 0 32) -> (at_ t 32 32 = at_ old 32 32 \/ at_ t 32 32 = at_ new 32 32) -> torn SS old new t.
Proof.
  intros A B C D E. split; [lia|]. intros k. unfold SS. destruct k as [|[|k]]; [exact D|exact E|]. left.
  rewrite !at_tail; auto; lia.
Qed.

(** In both byte orders, with and without atomic sector writes: mounting finds the newest metaroot. *)
Example C04_mount_witness :
  forallb (fun sw => forallb (fun atom =>
    let d0 := seal sw 5 (work 100 10 0) in
    let d1 := seal sw 6 (work 90 11 1) in
    let s := off_state d0 d1 in
    let '(r, s') := RedVolMountMetaroot BS SS true sw atom false (Ok tt) (Ok tt) s in
    usable_b sw d0 && usable_b sw d1 && (seqno sw d1 =? 6)
    && match r with Ok _ => true | Err _ => false end && (b_seq s' =? 7)
    && (fld false (b_mr s' true) 20 4 =? 90) && (nth 40 (b_mr s' false) 0 =? 1)) [true; false]) [true; false] = true.
Proof. vm_compute. reflexivity. Qed.
(** The hypotheses of C04_transact and C04_torn hold for a mounted volume. *)
Example C04_torn_witness : forall sw, let s := on_state sw 7 (seal sw 5 (work 100 10 0)) (work 80 12 2) in
  blocks_ok BS (b_mr s) /\ blocks_ok BS (b_disk s) /\ b_seq s < UINT64_MAX
  /\ usable SS sw (b_disk s true) /\ seqno sw (b_disk s true) = 6 /\ usable SS sw (b_disk s false) /\ seqno sw (b_disk s false) = 5
  /\ exists s', RedVolTransact BS SS true sw (Ok tt) (Ok tt) None s = (Ok tt, s').
Proof.
  intros sw s. split; [apply blocks_dec; destruct sw; vm_compute; reflexivity|]. split; [apply blocks_dec; destruct sw; vm_compute; reflexivity|].
  split; [reflexivity|]. split; [apply usable_dec; destruct sw; vm_compute; reflexivity|]. split; [destruct sw; vm_compute; reflexivity|].
  split; [apply usable_dec; destruct sw; vm_compute; reflexivity|]. split; [destruct sw; vm_compute; reflexivity|].
  eexists. unfold RedVolTransact. cbn [b_seq s on_state SeqNumIncrement bset_mr N.eqb]. reflexivity.
Qed.
(** A torn write of either kind is detected: the torn block is not usable although its first sector is. *)
Example C04_torn_detected : forall sw,
  let old := seal sw 5 (work 100 10 0) in let new := seal sw 7 (work 80 12 2) in
  (torn SS old new (tear1 old new) /\ ~ usable SS sw (tear1 old new) /\ sector_ok SS sw (tear1 old new))
  /\ torn SS old new (tear2 old new) /\ ~ usable SS sw (tear2 old new).
Proof.
  intros sw old new. split; [split; [|split]|split].
  - apply torn_dec; destruct sw; try reflexivity; [right|right|left|left]; vm_compute; reflexivity.
  - rewrite <- usable_dec. destruct sw; vm_compute; discriminate.
  - destruct sw; split; vm_compute; reflexivity.
  - apply torn_dec; destruct sw; try reflexivity; [left|left|right|right]; vm_compute; reflexivity.
  - rewrite <- usable_dec. destruct sw; vm_compute; discriminate.
Qed.
(** Flipping one bit of the bitmap meets the hypotheses of C04_corruption. *)
Example C04_corruption_witness : let x := seal true 5 (work 100 10 0) in let y := putb x 50 [1] in
  usable SS true x /\ x <> y /\ (forall k, k < 400 \/ 400 + 32 <= k -> buf_bit x k = buf_bit y k) /\ at_ x 4 4 = at_ y 4 4 /\ at_ x 16 4 = at_ y 16 4.
Proof.
  intros x y. split; [apply usable_dec; vm_compute; reflexivity|]. split; [intros E; apply (f_equal (fun z => nth 50 z 0)) in E; vm_compute in E; discriminate|].
  split; [|split; reflexivity].
  intros k H. unfold buf_bit, nthN. assert (N.to_nat (k / 8) <> 50)%nat.
  { pose proof (N.div_mod k 8 ltac:(lia)). pose proof (N.mod_lt k 8 ltac:(lia)). intros E. assert (k / 8 = 50) by lia. lia. }
  unfold y. rewrite nth_putb by (vm_compute; lia). cbn [length]. cases; try lia; reflexivity.
Qed.

(** FINDING.  A metaroot is valid if its checksums are, and its sequence number is one more than that
    of the committed metaroot; but the sequence number of a metaroot whose write was interrupted is
    used again for the next one.  Power is lost during the first write after only the first sector
    was written, the volume is mounted again (at the committed state), and power is lost during the
    next write, after only the second sector was written.  Then the block holds the first of the two
    uncommitted metaroots, and mounting uses it, although its transaction point never completed and
    the volume had since gone on from the committed state (so that blocks it refers to may have been
    overwritten).  Sectors of a block being written in any order, and interrupted writes leaving a
    mixture of old and new sectors, are both within what the metaroot's two checksums guard against. *)
Theorem C04_double_tear_refuted : forall sw atom,
  let com := seal sw 6 (work 90 11 1) in
  let old := seal sw 5 (work 100 10 0) in
  exists w1 w2 new1 new2 t1 t2,
    (* first life: the transaction point of [w1] is interrupted, leaving [t1] *)
    torn SS old new1 t1
    /\ (exists s', RedVolTransact BS SS true sw (Ok tt) (Ok tt) (Some (EIO, t1)) (on_state sw 7 old w1) = (Err EIO, s')
        /\ b_disk s' false = t1)
    /\ (exists s', RedVolTransact BS SS true sw (Ok tt) (Ok tt) None (on_state sw 7 old w1) = (Ok tt, s') /\ b_disk s' false = new1)
    (* second life: mounted at the committed state with sequence number 7 ... *)
    /\ (exists s', RedVolMountMetaroot BS SS true sw atom false (Ok tt) (Ok tt) (off_state t1 com) = (Ok tt, s')
        /\ members true false (b_mr s' false) = members true sw com /\ b_seq s' = 7 /\ b_cur s' = false)
    (* ... the transaction point of [w2] is interrupted, leaving [t2] *)
    /\ torn SS t1 new2 t2
    /\ (exists s', RedVolTransact BS SS true sw (Ok tt) (Ok tt) (Some (EIO, t2)) (on_state sw 7 t1 w2) = (Err EIO, s')
        /\ b_disk s' false = t2)
    /\ (exists s', RedVolTransact BS SS true sw (Ok tt) (Ok tt) None (on_state sw 7 t1 w2) = (Ok tt, s') /\ b_disk s' false = new2)
    (* third life: neither the committed state nor [w2] *)
    /\ (exists s', RedVolMountMetaroot BS SS true sw atom false (Ok tt) (Ok tt) (off_state t2 com) = (Ok tt, s')
        /\ members true false (b_mr s' false) = members true false w1
        /\ members true false w1 <> members true sw com /\ members true false w1 <> members true false w2).
Proof.
  intros sw atom com old. set (w1 := work 80 12 2). set (w2 := work 79 13 2).
  set (new1 := seal sw 7 w1). set (new2 := seal sw 7 w2).
  exists w1, w2, new1, new2, (tear1 old new1), (tear2 (tear1 old new1) new2).
  assert (FST : forall p : res unit * bst, match fst p with Ok _ => true | Err _ => false end = true -> p = (Ok tt, snd p)).
  { intros [[[]|] s'] H; try discriminate. reflexivity. }
  split; [apply torn_dec; destruct sw; try reflexivity; [right|right|left|left]; vm_compute; reflexivity|].
  split. { eexists. split; [unfold RedVolTransact; cbn [b_seq on_state SeqNumIncrement bset_mr N.eqb]; reflexivity|]. destruct sw; vm_compute; reflexivity. }
  split. { eexists. split; [unfold RedVolTransact; cbn [b_seq on_state SeqNumIncrement bset_mr N.eqb]; reflexivity|]. destruct sw; vm_compute; reflexivity. }
  split.
  { eexists. split; [apply FST; destruct sw, atom; vm_compute; reflexivity|]. split; [|split]; destruct sw, atom; vm_compute; reflexivity. }
  split; [apply torn_dec; destruct sw; try reflexivity; [left|left|right|right]; vm_compute; reflexivity|].
  split. { eexists. split; [unfold RedVolTransact; cbn [b_seq on_state SeqNumIncrement bset_mr N.eqb]; reflexivity|]. destruct sw; vm_compute; reflexivity. }
  split. { eexists. split; [unfold RedVolTransact; cbn [b_seq on_state SeqNumIncrement bset_mr N.eqb]; reflexivity|]. destruct sw; vm_compute; reflexivity. }
  eexists. split; [apply FST; destruct sw, atom; vm_compute; reflexivity|]. split; [destruct sw, atom; vm_compute; reflexivity|].
  split; [|vm_compute; discriminate]. destruct sw; vm_compute; discriminate.
Qed.

(** FINDING.  With REDCONF_ENDIAN_SWAP, a transaction point whose first RedIoFlush fails returns with
    the working metaroot in memory in the byte order of the disk (volume.c:549-581): on the volume, now
    read-only, the counters of free blocks and free inodes (red_statvfs) are those with reversed bytes. *)
Theorem C04_swap_left_refuted :
  let s := on_state true 7 (seal true 5 (work 100 10 0)) (work 80 12 2) in
  exists s', RedVolTransact BS SS true true (Err EIO) (Ok tt) None s = (Err EIO, s')
    /\ fld false (b_mr s (b_cur s)) 20 4 = 80 /\ fld false (b_mr s' (b_cur s')) 20 4 = 80 * 2 ^ 24.
Proof.
  eexists. split; [unfold RedVolTransact; cbn [b_seq on_state SeqNumIncrement bset_mr N.eqb]; reflexivity|]. split; vm_compute; reflexivity.
Qed.
