(** A concrete history for C09: with two buffers, an inode node of block 3 is written, its buffer is
    evicted to make room for two other blocks, and block 3 is read back from the disk. *)
From Verif Require Import Base Crc Endian Cache CacheSpec CacheP PropCache.
Ltac Zify.zify_post_hook ::= idtac.

Definition y0 : sys := mkSys 2 20 1 (fun _ => 6) (fun _ => true) (fun _ => None) (fun _ _ => repeat 7 20) (fun _ => 10).
Lemma y0_ok : sys_ok y0.
Proof.
  constructor; cbn; try lia; try (intros; lia).
  - intros. vm_compute. intros; discriminate.
  - discriminate.
  - intros _ _. split; [reflexivity|]. repeat constructor.
  - intros. vm_compute. intros; discriminate.
Qed.

Definition body : list N := repeat 0 16 ++ [1; 2; 3; 4].
Definition hist : list cmd :=
  [CGet 0 3 TInode true true; CPoke 0 body; CPut 0 0;
   CGet 0 4 TData true true; CPut 0 1; CGet 0 5 TData true true; CPut 0 0].

(** executes a history, keeping the specification's bookkeeping *)
Definition next (k : cmd) (o : out) (s : spec) : spec :=
  match k, o with
  | CGet v b t new dirty, OBuf (Ok p) =>
      mkSpec (upd2 (s_cont s) v b (if new then zeros 20 t else typed t (s_cont s v b)))
              (upd2 (s_used s) v b true)
              (upd2 (s_pend s) v b (s_pend s v b || dirty))
              (updn (s_hand s) p (Some match s_hand s p with
                                       | Some h => mkHnd v b (h_cnt h + 1) (h_wr h || dirty)
                                       | None => mkHnd v b 1 dirty
                                       end))
  | CPut v p, _ => match s_hand s p with Some h => mkSpec (s_cont s) (s_used s) (s_pend s)
         (updn (s_hand s) p (if h_cnt h =? 1 then None else Some (mkHnd (h_vol h) (h_blk h) (h_cnt h - 1) (h_wr h)))) | None => s end
  | CPoke p x, _ => match s_hand s p with Some h => 
      mkSpec (upd2 (s_cont s) (h_vol h) (h_blk h) (poked (s_cont s (h_vol h) (h_blk h)) x))
              (s_used s) (s_pend s) (s_hand s) | None => s end
  | _, _ => s
  end.
Definition go1 (z : cst * spec) (k : cmd) : cst * spec :=
  let '(o, c') := yexec y0 k (fst z) in (c', next k o (snd z)).
Definition z0 : cst * spec := (RedBufferInit 2 20 (y_disk y0) (y_seq y0), spec0 (y_disk y0)).
Definition z (n : nat) : cst * spec := fold_left go1 (firstn n hist) z0.

Lemma z_step n k : nth_error hist n = Some k -> z (S n) = go1 (z n) k.
Proof.
  intros H. unfold z. assert (E : firstn (S n) hist = firstn n hist ++ [k]).
  { clear -H. revert n k H. induction hist as [|x l IH]; intros [|n] k H; try discriminate; cbn in *.
    - now injection H as ->.
    - f_equal. now apply IH. }
  rewrite E, fold_left_app. reflexivity.
Qed.
Definition stepz (n : nat) (k : cmd) (o : out) : Prop :=
  step1 y0 (fst (z n)) (snd (z n)) k o (fst (z (S n))) (snd (z (S n))).
Lemma z_step1 n k o : nth_error hist n = Some k -> fst (yexec y0 k (fst (z n))) = o ->
  yallowed y0 (snd (z n)) k ->
  ystep y0 (yfail y0 (fst (z n)) (fst (z (S n)))) (snd (z n)) k o (next k o (snd (z n))) ->
  stepz n k o.
Proof.
  intros K O A S. unfold stepz, step1. rewrite (z_step n k K) in *. unfold go1 in *. destruct (yexec y0 k (fst (z n))) as [o' c'] eqn:E.
  cbn [fst] in *. subst o'. cbn [fst snd] in *. auto.
Qed.
Lemma hand_free n : (n = 0 \/ n = 3 \/ n = 5)%nat -> forall q, s_hand (snd (z n)) q = None.
Proof. intros [->|[->| ->]] [|[|q]]; vm_compute; reflexivity. Qed.
Lemma none_held n : (n = 0 \/ n = 3 \/ n = 5)%nat -> forall v b, ~ held (snd (z n)) v b.
Proof. intros H v b (p & h & P & _). rewrite (hand_free n H) in P. discriminate. Qed.

Lemma step_0 : stepz 0 (CGet 0 3 TInode true true) (OBuf (Ok 0%nat)).
Proof.
  apply z_step1; [reflexivity|vm_compute; reflexivity| |].
    - split; [reflexivity|]. split; [intros p h H; rewrite hand_free in H by auto; discriminate|]. intros _. split; reflexivity.
    - apply S_get; [reflexivity| |discriminate]. rewrite hand_free by auto. now apply none_held; auto.
Qed.
Lemma step_1 : stepz 1 (CPoke 0 body) ONone.
Proof.
  apply z_step1; [reflexivity|vm_compute; reflexivity| |].
    - split; [split; [reflexivity|repeat constructor]|]. eexists. split; vm_compute; reflexivity.
    - eapply (S_poke 2 20 (y_bc y0) (y_mounted y0) (y_seq y0)) with (s := snd (z 1)) (h := mkHnd 0 3 1 true). vm_compute; reflexivity.
Qed.
Lemma step_2 : stepz 2 (CPut 0 0) ONone.
Proof.
  apply z_step1; [reflexivity|vm_compute; reflexivity| |].
    - eexists. split; vm_compute; reflexivity.
    - apply (S_put 2 20 (y_bc y0) (y_mounted y0) (y_seq y0)) with (s := snd (z 2)) (h := mkHnd 0 3 1 true). vm_compute; reflexivity.
Qed.
Lemma step_3 : stepz 3 (CGet 0 4 TData true true) (OBuf (Ok 1%nat)).
Proof.
  apply z_step1; [reflexivity|vm_compute; reflexivity| |].
    - split; [reflexivity|]. split; [intros p h H; rewrite hand_free in H by auto; discriminate|]. intros _. split; vm_compute; reflexivity.
    - apply S_get; [reflexivity| |discriminate]. rewrite hand_free by auto. now apply none_held; auto.
Qed.
Lemma step_4 : stepz 4 (CPut 0 1) ONone.
Proof.
  apply z_step1; [reflexivity|vm_compute; reflexivity| |].
    - eexists. split; vm_compute; reflexivity.
    - apply (S_put 2 20 (y_bc y0) (y_mounted y0) (y_seq y0)) with (s := snd (z 4)) (h := mkHnd 0 4 1 true). vm_compute; reflexivity.
Qed.
Lemma step_5 : stepz 5 (CGet 0 5 TData true true) (OBuf (Ok 0%nat)).
Proof.
  apply z_step1; [reflexivity|vm_compute; reflexivity| |].
    - split; [reflexivity|]. split; [intros p h H; rewrite hand_free in H by auto; discriminate|]. intros _. split; vm_compute; reflexivity.
    - apply S_get; [reflexivity| |discriminate]. rewrite hand_free by auto. now apply none_held; auto.
Qed.
Lemma step_6 : stepz 6 (CPut 0 0) ONone.
Proof.
  apply z_step1; [reflexivity|vm_compute; reflexivity| |].
  - eexists. split; vm_compute; reflexivity.
  - apply (S_put 2 20 (y_bc y0) (y_mounted y0) (y_seq y0)) with (s := snd (z 6)) (h := mkHnd 0 5 1 true). vm_compute; reflexivity.
Qed.
Lemma reach_next n k o : stepz n k o -> reach y0 (fst (z n)) (snd (z n)) -> reach y0 (fst (z (S n))) (snd (z (S n))).
Proof. intros (A & E & S) R. econstructor; eauto. Qed.
Lemma reach_1 : reach y0 (fst (z 1)) (snd (z 1)).
Proof. exact (reach_next _ _ _ step_0 (reach_init y0)). Qed.
Lemma reach7 : reach y0 (fst (z 7)) (snd (z 7)).
Proof.
  eapply reach_next; [exact step_6|]. eapply reach_next; [exact step_5|]. eapply reach_next; [exact step_4|].
  eapply reach_next; [exact step_3|]. eapply reach_next; [exact step_2|]. eapply reach_next; [exact step_1|]. exact reach_1.
Qed.

Lemma pair_fst {A B} (x : A * B) a : fst x = a -> x = (a, snd x).
Proof. destruct x; cbn; congruence. Qed.

(** the buffer of block 3 was evicted (block 5 took it over) and its node is on the disk *)
Example C09_nonvacuous_evicted :
  reach y0 (fst (z 7)) (snd (z 7)) /\ hd_blk (c_head (fst (z 7)) 0) = 5
  /\ skipn 16 (c_disk (fst (z 7)) 0 3) = [1; 2; 3; 4] /\ c_io (fst (z 7)) = 1.
Proof. split; [exact reach7|]. vm_compute. auto. Qed.

(** reading block 3 back is allowed, succeeds, and shows the bytes written to it *)
Example C09_nonvacuous_get :
  yallowed y0 (snd (z 7)) (CGet 0 3 TInode false false) /\
  exists c', yexec y0 (CGet 0 3 TInode false false) (fst (z 7)) = (OBuf (Ok 1%nat), c')
    /\ skipn 16 (c_buf c' 1) = [1; 2; 3; 4].
Proof.
  split.
  - split; [reflexivity|]. split; [|intros _; vm_compute; reflexivity].
    intros [|[|p]] h; vm_compute; discriminate.
  - exists (snd (yexec y0 (CGet 0 3 TInode false false) (fst (z 7)))). split; [|vm_compute; reflexivity].
    apply pair_fst. vm_compute. reflexivity.
Qed.
(** the hypotheses of C09_last_store: block 3 is written by the second command, and the five that
    follow, which evict its buffer, do not store into it *)
Example C09_nonvacuous_last_store :
  reach y0 (fst (z 1)) (snd (z 1)) /\ s_hand (snd (z 1)) 0 = Some (mkHnd 0 3 1 true)
  /\ step1 y0 (fst (z 1)) (snd (z 1)) (CPoke 0 body) ONone (fst (z 2)) (snd (z 2))
  /\ quiet y0 0 3 (fst (z 2)) (snd (z 2)) (fst (z 7)) (snd (z 7)).
Proof.
  split; [exact reach_1|]. split; [vm_compute; reflexivity|]. split; [exact step_1|].
  eapply quiet_cons; [exact step_2|cbn; tauto|]. eapply quiet_cons; [exact step_3|intros (_ & _ & H); discriminate|].
  eapply quiet_cons; [exact step_4|cbn; tauto|]. eapply quiet_cons; [exact step_5|intros (_ & _ & H); discriminate|].
  eapply quiet_cons; [exact step_6|cbn; tauto|]. constructor.
Qed.

(** The rule "fewer than 255 acquisitions of one block" is needed: with 256, bRefCount (uint8_t)
    returns to 0 while the client still holds the buffer, and the buffer can be taken from it. *)
Fixpoint gets (n : nat) (c : cst) : cst :=
  match n with O => c | S m => gets m (snd (yexec y0 (CGet 0 3 TData false false) c)) end.
Example C09_refcount_wraps :
  hd_ref (c_head (gets 255 (fst z0)) 0) = 255 /\ hd_ref (c_head (gets 256 (fst z0)) 0) = 0.
Proof. split; vm_compute; reflexivity. Qed.
