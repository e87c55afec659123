(** Model of util/memory.c, util/string.c and util/namelen.c over a flat byte memory.

    A memory is a total function from addresses to bytes.  Pointer NULL checks
    (REDERROR paths) are not modelled.  Buffers are assumed not to wrap around the
    address space, as C objects never do. *)
From Verif Require Import Base.

Definition mem := N -> N.

(** util/memory.c:98-101: for(ulIdx = 0; ulIdx < ulLen; ulIdx++) pbDest[ulIdx] = pbSrc[ulIdx];
    [n] counts the remaining iterations, [i] is ulIdx. *)
Fixpoint copy_fwd (n : nat) (i : N) (m : mem) (dst src : N) : mem :=
  match n with
  | O => m
  | S k => copy_fwd k (i + 1) (upd m (dst + i) (m (src + i))) dst src
  end.

(** util/memory.c:184-190: ulIdx = ulLen; while(ulIdx > 0) { ulIdx--; dest[ulIdx] = src[ulIdx]; } *)
Fixpoint copy_bwd (n : nat) (m : mem) (dst src : N) : mem :=
  match n with
  | O => m
  | S k => copy_bwd k (upd m (dst + N.of_nat k) (m (src + N.of_nat k))) dst src
  end.

(** util/memory.c:64-102 RedMemCpy *)
Definition RedMemCpy (m : mem) (dst src len : N) : mem := copy_fwd (N.to_nat len) 0 m dst src.

(** util/memory.c:115-192 RedMemMove *)
Definition RedMemMove (m : mem) (dst src len : N) : mem :=
  if dst <? src then copy_fwd (N.to_nat len) 0 m dst src
  else copy_bwd (N.to_nat len) m dst src.

(** util/memory.c:235-238 RedMemSet *)
Fixpoint set_loop (n : nat) (i : N) (m : mem) (dst v : N) : mem :=
  match n with O => m | S k => set_loop k (i + 1) (upd m (dst + i) v) dst v end.
Definition RedMemSet (m : mem) (dst v len : N) : mem := set_loop (N.to_nat len) 0 m dst v.

(** util/memory.c:297-313 RedMemCmp *)
Fixpoint cmp_loop (n : nat) (i : N) (m : mem) (p q : N) : Z :=
  match n with
  | O => 0%Z
  | S k => if m (p + i) =? m (q + i) then cmp_loop k (i + 1) m p q
           else if m (q + i) <? m (p + i) then 1%Z else (-1)%Z
  end.
Definition RedMemCmp (m : mem) (p q len : N) : Z := cmp_loop (N.to_nat len) 0 m p q.

(** util/string.c:92-103 RedStrLenUnchecked, util/namelen.c:41-58 RedNameLen ([stop] tells
    whether a character ends the string).  [fuel] bounds the loop; None = out of fuel. *)
Fixpoint len_loop (fuel : nat) (stop : N -> bool) (m : mem) (p i : N) : option N :=
  match fuel with
  | O => None
  | S f => if stop (m (p + i)) then Some i else len_loop f stop m p (i + 1)
  end.
Definition RedStrLen (fuel : nat) (m : mem) (p : N) : option N := len_loop fuel (fun c => c =? 0) m p 0.
Definition RedNameLen (fuel : nat) (sep : N) (m : mem) (p : N) : option N :=
  len_loop fuel (fun c => (c =? 0) || (c =? sep)) m p 0.

(** util/string.c:148-180 RedStrCmpUnchecked *)
Fixpoint strcmp_loop (fuel : nat) (m : mem) (p q i : N) : option Z :=
  match fuel with
  | O => None
  | S f =>
    if (m (p + i) =? m (q + i)) && negb (m (p + i) =? 0) then strcmp_loop f m p q (i + 1)
    else Some (if m (q + i) <? m (p + i) then 1%Z
               else if m (p + i) <? m (q + i) then (-1)%Z else 0%Z)
  end.
Definition RedStrCmp (fuel : nat) (m : mem) (p q : N) : option Z := strcmp_loop fuel m p q 0.

(** util/string.c:232-268 RedStrNCmpUnchecked *)
Fixpoint strncmp_loop (n : nat) (m : mem) (p q i : N) : Z :=
  match n with
  | O => 0%Z
  | S k =>
    let r := if m (p + i) =? m (q + i) then 0%Z
             else if m (q + i) <? m (p + i) then 1%Z else (-1)%Z in
    if (negb (r =? 0)%Z) || (m (p + i) =? 0) then r else strncmp_loop k m p q (i + 1)
  end.
Definition RedStrNCmp (m : mem) (p q len : N) : Z := strncmp_loop (N.to_nat len) m p q 0.

(** util/string.c:310-328 RedStrNCpyUnchecked: first loop copies until NUL or ulLen, second pads. *)
Fixpoint strncpy_loop (n : nat) (m : mem) (dst src i : N) : mem :=
  match n with
  | O => m
  | S k => if m (src + i) =? 0 then set_loop (S k) i m dst 0
           else strncpy_loop k (upd m (dst + i) (m (src + i))) dst src (i + 1)
  end.
Definition RedStrNCpy (m : mem) (dst src len : N) : mem := strncpy_loop (N.to_nat len) m dst src 0.

(* ------------------------------------------------------------------ *)
(** * Specifications *)

(** What memmove/memcpy must produce: the destination holds the old source bytes,
    everything else is unchanged. *)
Definition moved (m m' : mem) (dst src len : N) : Prop :=
  forall a, m' a = if (dst <=? a) && (a <? dst + len) then m (src + (a - dst)) else m a.

Lemma copy_fwd_spec n i m dst src :
  (forall j k, j < N.of_nat n -> k < j -> src + i + j <> dst + i + k) ->
  forall a, copy_fwd n i m dst src a =
    if (dst + i <=? a) && (a <? dst + i + N.of_nat n) then m (src + (a - dst)) else m a.
Proof.
  revert i m; induction n; intros i m H a; cbn [copy_fwd].
  - destruct (N.leb_spec (dst + i) a), (N.ltb_spec a (dst + i + N.of_nat 0)); simpl; auto; lia.
  - rewrite IHn.
    + unfold upd.
      destruct (N.leb_spec (dst + i) a), (N.ltb_spec a (dst + i + N.of_nat (S n))),
               (N.leb_spec (dst + (i + 1)) a), (N.ltb_spec a (dst + (i + 1) + N.of_nat n)); simpl; try lia.
      * destruct (N.eqb_spec (src + (a - dst)) (dst + i)); auto. exfalso.
        apply (H (a - (dst + i)) 0); lia.
      * destruct (N.eqb_spec a (dst + i)); [f_equal; lia|lia].
      * destruct (N.eqb_spec a (dst + i)); auto; lia.
      * destruct (N.eqb_spec a (dst + i)); auto; lia.
    + intros j k Hj Hk E. apply (H (j + 1) (k + 1)); lia.
Qed.

Lemma copy_bwd_spec n m dst src :
  src <= dst ->
  forall a, copy_bwd n m dst src a =
    if (dst <=? a) && (a <? dst + N.of_nat n) then m (src + (a - dst)) else m a.
Proof.
  intros L; revert m; induction n; intros m a; cbn [copy_bwd].
  - destruct (N.leb_spec dst a), (N.ltb_spec a (dst + N.of_nat 0)); simpl; auto; lia.
  - rewrite IHn. unfold upd.
    destruct (N.leb_spec dst a), (N.ltb_spec a (dst + N.of_nat (S n))), (N.ltb_spec a (dst + N.of_nat n));
      simpl; try lia.
    all: repeat match goal with |- context[?x =? ?y] => destruct (N.eqb_spec x y) end;
      try lia; auto; try (f_equal; lia).
Qed.

Lemma RedMemMove_spec m dst src len : moved m (RedMemMove m dst src len) dst src len.
Proof.
  intros a. unfold RedMemMove. destruct (N.ltb_spec dst src).
  - rewrite copy_fwd_spec by (intros; lia). rewrite N.add_0_r, N2Nat.id. reflexivity.
  - rewrite copy_bwd_spec by lia. rewrite N2Nat.id. reflexivity.
Qed.

Definition disjoint_ranges (a b len : N) : Prop := a + len <= b \/ b + len <= a.

Lemma RedMemCpy_spec m dst src len :
  disjoint_ranges dst src len -> moved m (RedMemCpy m dst src len) dst src len.
Proof.
  intros D a. unfold RedMemCpy, disjoint_ranges in *.
  rewrite copy_fwd_spec by (intros; lia). rewrite N.add_0_r, N2Nat.id. reflexivity.
Qed.

Lemma set_loop_spec n i m dst v a :
  set_loop n i m dst v a = if (dst + i <=? a) && (a <? dst + i + N.of_nat n) then v else m a.
Proof.
  revert i m; induction n; intros i m; cbn [set_loop].
  - destruct (N.leb_spec (dst + i) a), (N.ltb_spec a (dst + i + N.of_nat 0)); simpl; auto; lia.
  - rewrite IHn. unfold upd.
    destruct (N.leb_spec (dst + i) a), (N.ltb_spec a (dst + i + N.of_nat (S n))),
             (N.leb_spec (dst + (i + 1)) a), (N.ltb_spec a (dst + (i + 1) + N.of_nat n)); simpl; try lia;
      destruct (N.eqb_spec a (dst + i)); auto; lia.
Qed.

Lemma RedMemSet_spec m dst v len a :
  RedMemSet m dst v len a = if (dst <=? a) && (a <? dst + len) then v else m a.
Proof. unfold RedMemSet. rewrite set_loop_spec, N.add_0_r, N2Nat.id. reflexivity. Qed.

(** The first [n] bytes at address [p]. *)
Fixpoint bytes_at (m : mem) (p : N) (n : nat) : list N :=
  match n with O => [] | S k => m p :: bytes_at m (p + 1) k end.

(** Lexicographic comparison of byte strings, as in the C standard. *)
Fixpoint lex_cmp (a b : list N) : Z :=
  match a, b with
  | x :: s, y :: t => if x =? y then lex_cmp s t else if y <? x then 1%Z else (-1)%Z
  | [], [] => 0%Z
  | [], _ :: _ => (-1)%Z
  | _ :: _, [] => 1%Z
  end.

Lemma cmp_loop_lex n i m p q : cmp_loop n i m p q = lex_cmp (bytes_at m (p + i) n) (bytes_at m (q + i) n).
Proof.
  revert i; induction n; intros; cbn [cmp_loop bytes_at lex_cmp]; auto.
  rewrite IHn, !N.add_assoc. reflexivity.
Qed.
Lemma RedMemCmp_spec m p q len :
  RedMemCmp m p q len = lex_cmp (bytes_at m p (N.to_nat len)) (bytes_at m q (N.to_nat len)).
Proof. unfold RedMemCmp. now rewrite cmp_loop_lex, !N.add_0_r. Qed.

Lemma lex_cmp_0 a b : length a = length b -> (lex_cmp a b = 0%Z <-> a = b).
Proof.
  revert b; induction a; destruct b; simpl; intros; try discriminate; [tauto|].
  destruct (N.eqb_spec a n) as [->|D].
  - rewrite IHa by lia. split; intros; congruence.
  - split; [|congruence]. destruct (n <? a); discriminate.
Qed.

(** [cstr m p s]: at address p there is the NUL-terminated string s. *)
Definition cstr (m : mem) (p : N) (s : list N) : Prop :=
  ~ In 0 s /\ bytes_at m p (length s) = s /\ m (p + lenN s) = 0.

Lemma bytes_at_nth m p n k : (k < n)%nat -> nth k (bytes_at m p n) 0 = m (p + N.of_nat k).
Proof.
  revert p k; induction n; intros; [lia|]. destruct k; cbn [bytes_at nth].
  - f_equal; lia.
  - rewrite IHn by lia. f_equal; lia.
Qed.
Lemma bytes_at_length m p n : length (bytes_at m p n) = n.
Proof. revert p; induction n; simpl; auto. Qed.

Lemma cstr_nth m p s k : cstr m p s -> k < lenN s -> m (p + k) = nthN s k 0 /\ m (p + k) <> 0.
Proof.
  intros (A & B & C) H. unfold lenN in H.
  assert (E : m (p + k) = nthN s k 0).
  { unfold nthN. rewrite <- B at 1. rewrite bytes_at_nth by lia. f_equal; lia. }
  split; auto. rewrite E. intros Z. apply A. unfold nthN in Z. rewrite <- Z. apply nth_In. lia.
Qed.
Lemma cstr_cons m p c s : cstr m p (c :: s) -> m p = c /\ c <> 0 /\ cstr m (p + 1) s.
Proof.
  intros (A & B & C). simpl in A, B. unfold lenN in C. simpl length in C.
  injection B as B1 B2. repeat split; auto.
  unfold lenN. rewrite <- C at 1. f_equal; lia.
Qed.
Lemma cstr_nil m p : cstr m p [] -> m p = 0.
Proof. intros (_ & _ & C). unfold lenN in C; simpl in C. now rewrite N.add_0_r in C. Qed.

Lemma len_loop_spec stop m p n fuel i :
  (forall k, k < n -> stop (m (p + i + k)) = false) -> stop (m (p + i + n)) = true ->
  (N.to_nat n < fuel)%nat -> len_loop fuel stop m p i = Some (i + n).
Proof.
  revert i n; induction fuel; intros i n H0 H1 HF; [lia|]. cbn [len_loop].
  destruct (N.eq_dec n 0) as [->|].
  - rewrite N.add_0_r in *. now rewrite H1.
  - specialize (H0 0) as H00. rewrite N.add_0_r in H00. rewrite H00 by lia.
    rewrite (IHfuel (i + 1) (n - 1)).
    + f_equal; lia.
    + intros. replace (p + (i + 1) + k) with (p + i + (k + 1)) by lia. apply H0; lia.
    + replace (p + (i + 1) + (n - 1)) with (p + i + n) by lia. auto.
    + lia.
Qed.

Lemma RedStrLen_spec m p s fuel : cstr m p s -> (length s < fuel)%nat -> RedStrLen fuel m p = Some (lenN s).
Proof.
  intros H HF. unfold RedStrLen. rewrite (len_loop_spec _ m p (lenN s)).
  - reflexivity.
  - intros k Hk. rewrite N.add_0_r. apply N.eqb_neq. now apply (cstr_nth m p s).
  - rewrite N.add_0_r. destruct H as (_ & _ & C). rewrite C. reflexivity.
  - unfold lenN. lia.
Qed.

Lemma strcmp_loop_spec s t m p q i fuel :
  cstr m (p + i) s -> cstr m (q + i) t -> (length s < fuel)%nat ->
  strcmp_loop fuel m p q i = Some (lex_cmp s t).
Proof.
  revert t i fuel; induction s; intros t i fuel Hs Ht HF; (destruct fuel; [simpl in HF; lia|]); cbn [strcmp_loop].
  - apply cstr_nil in Hs. rewrite Hs. rewrite N.eqb_refl. simpl negb. rewrite andb_false_r.
    destruct t as [|c t].
    + apply cstr_nil in Ht. rewrite Ht. reflexivity.
    + apply cstr_cons in Ht as (Hc & NZ & _). rewrite Hc. cbn [lex_cmp]. f_equal.
      destruct (N.ltb_spec c 0), (N.ltb_spec 0 c); auto; lia.
  - apply cstr_cons in Hs as (Ha & NZ & Hs). rewrite Ha.
    destruct t as [|c t].
    + apply cstr_nil in Ht. rewrite Ht. cbn [lex_cmp].
      destruct (N.eqb_spec a 0); [congruence|]. simpl. destruct (N.ltb_spec 0 a); auto; lia.
    + apply cstr_cons in Ht as (Hc & _ & Ht). rewrite Hc. cbn [lex_cmp].
      destruct (N.eqb_spec a c) as [->|D]; simpl.
      * destruct (N.eqb_spec c 0); [congruence|]. simpl.
        apply IHs; [| |simpl in HF; lia]; rewrite N.add_assoc; auto.
      * f_equal. destruct (N.ltb_spec c a); auto. destruct (N.ltb_spec a c); auto; lia.
Qed.

Lemma RedStrCmp_spec m p q s t fuel :
  cstr m p s -> cstr m q t -> (length s < fuel)%nat -> RedStrCmp fuel m p q = Some (lex_cmp s t).
Proof. intros. unfold RedStrCmp. apply strcmp_loop_spec; rewrite ?N.add_0_r; auto. Qed.

Lemma strncmp_loop_spec n s t m p q i :
  cstr m (p + i) s -> cstr m (q + i) t ->
  strncmp_loop n m p q i = lex_cmp (firstn n s) (firstn n t).
Proof.
  revert s t i; induction n; intros s t i Hs Ht; cbn [strncmp_loop]; [reflexivity|].
  destruct s as [|a s], t as [|c t].
  - apply cstr_nil in Hs, Ht. rewrite Hs, Ht. reflexivity.
  - apply cstr_nil in Hs. apply cstr_cons in Ht as (Hc & NZ & Ht). rewrite Hs, Hc. simpl.
    destruct (N.eqb_spec 0 c); [congruence|]. destruct (N.ltb_spec c 0); [lia|]. reflexivity.
  - apply cstr_nil in Ht. apply cstr_cons in Hs as (Hc & NZ & Hs). rewrite Ht, Hc. simpl.
    destruct (N.eqb_spec a 0); [congruence|]. destruct (N.ltb_spec 0 a); [|lia]. reflexivity.
  - apply cstr_cons in Hs as (Ha & NZa & Hs). apply cstr_cons in Ht as (Hc & NZ & Ht). rewrite Ha, Hc.
    cbn [firstn lex_cmp]. destruct (N.eqb_spec a c) as [->|D].
    + simpl. destruct (N.eqb_spec c 0); [congruence|]. apply IHn; rewrite N.add_assoc; auto.
    + destruct (c <? a); reflexivity.
Qed.
Lemma RedStrNCmp_spec m p q s t len :
  cstr m p s -> cstr m q t ->
  RedStrNCmp m p q len = lex_cmp (firstn (N.to_nat len) s) (firstn (N.to_nat len) t).
Proof. intros. apply strncmp_loop_spec; rewrite N.add_0_r; auto. Qed.

(** strncpy: byte k of the destination is byte k of the string, NUL beyond its end; other memory is unchanged. *)
Lemma strncpy_loop_spec n s m dst src i :
  cstr m (src + i) s ->
  (forall j k, k < N.of_nat n -> j <= lenN s -> dst + i + k <> src + i + j) ->
  forall a, strncpy_loop n m dst src i a =
    if (dst + i <=? a) && (a <? dst + i + N.of_nat n) then nthN s (a - (dst + i)) 0 else m a.
Proof.
  revert s m i; induction n; intros s m i Hs HD a; cbn [strncpy_loop].
  - destruct (N.leb_spec (dst + i) a), (N.ltb_spec a (dst + i + N.of_nat 0)); simpl; auto; lia.
  - destruct s as [|c s].
    + apply cstr_nil in Hs. rewrite Hs. simpl. rewrite set_loop_spec. unfold nthN.
      destruct (N.leb_spec (dst + (i + 1)) a), (N.ltb_spec a (dst + (i + 1) + N.of_nat n)),
        (N.leb_spec (dst + i) a), (N.ltb_spec a (dst + i + N.of_nat (S n))); cbn [andb];
      try lia; try (destruct (N.to_nat (a - (dst + i))); reflexivity); unfold upd;
      destruct (N.eqb_spec a (dst + i)); try lia; try (destruct (N.to_nat (a - (dst + i))); reflexivity); auto.
    + pose proof Hs as Hfull. apply cstr_cons in Hs as (Hc & NZ & Hs). rewrite Hc.
      destruct (N.eqb_spec c 0); [congruence|].
      assert (LC : lenN (c :: s) = lenN s + 1) by (unfold lenN; simpl; lia).
      assert (KEEP : forall j, j <= lenN s -> upd m (dst + i) c (src + (i + 1) + j) = m (src + (i + 1) + j)).
      { intros. apply upd_other. intros E. apply (HD (j + 1) 0); lia. }
      rewrite (IHn s).
      * unfold upd.
        destruct (N.leb_spec (dst + i) a), (N.ltb_spec a (dst + i + N.of_nat (S n))),
             (N.leb_spec (dst + (i + 1)) a), (N.ltb_spec a (dst + (i + 1) + N.of_nat n)); simpl; try lia.
        -- unfold nthN. replace (N.to_nat (a - (dst + i))) with (S (N.to_nat (a - (dst + (i + 1))))) by lia. reflexivity.
        -- destruct (N.eqb_spec a (dst + i)); [|lia]. subst a. unfold nthN. replace (dst + i - (dst + i)) with 0 by lia. reflexivity.
        -- destruct (N.eqb_spec a (dst + i)); auto; lia.
        -- destruct (N.eqb_spec a (dst + i)); auto; lia.
      * rewrite N.add_assoc. destruct Hs as (A & B & C). split; [exact A|]. split.
        -- rewrite <- B at 2.
           assert (G : forall (l : nat) x, (forall j, j < N.of_nat l -> upd m (dst + i) c (x + j) = m (x + j)) ->
                      bytes_at (upd m (dst + i) c) x l = bytes_at m x l).
           { induction l; intros; cbn [bytes_at]; auto. f_equal.
             - rewrite <- (N.add_0_r x) at 1 2. apply H; lia.
             - apply IHl. intros. rewrite <- N.add_assoc. apply H; lia. }
           apply G. intros. rewrite <- (N.add_assoc src). apply KEEP. unfold lenN. lia.
        -- rewrite <- (N.add_assoc src), KEEP by lia. rewrite <- C. f_equal; lia.
      * intros j k Hk Hj E. apply (HD (j + 1) (k + 1)); lia.
Qed.

Lemma RedStrNCpy_spec m dst src len s :
  cstr m src s -> (forall j k, k < len -> j <= lenN s -> dst + k <> src + j) ->
  forall a, RedStrNCpy m dst src len a =
    if (dst <=? a) && (a <? dst + len) then nthN s (a - dst) 0 else m a.
Proof.
  intros Hs HD a. unfold RedStrNCpy. rewrite (strncpy_loop_spec _ s).
  - rewrite N.add_0_r, N2Nat.id. reflexivity.
  - now rewrite N.add_0_r.
  - intros. rewrite !N.add_0_r. apply HD; lia.
Qed.

Lemma RedNameLen_spec sep m p s rest fuel :
  cstr m p (s ++ rest) -> ~ In sep s -> (rest = [] \/ exists r, rest = sep :: r) ->
  (length s < fuel)%nat -> RedNameLen fuel sep m p = Some (lenN s).
Proof.
  intros H NS HR HF. unfold RedNameLen.
  assert (LA : lenN (s ++ rest) = lenN s + lenN rest) by (unfold lenN; rewrite app_length; lia).
  rewrite (len_loop_spec _ m p (lenN s)).
  - reflexivity.
  - intros k Hk. rewrite N.add_0_r.
    assert (k < lenN (s ++ rest)) by lia.
    destruct (cstr_nth m p _ k H H0) as [E NZ]. apply orb_false_iff; split; apply N.eqb_neq; auto.
    rewrite E. unfold nthN, lenN in *. rewrite app_nth1 by lia. intros <-. apply NS, nth_In. lia.
  - rewrite N.add_0_r. destruct HR as [->|[r ->]].
    + rewrite app_nil_r in H. destruct H as (_ & _ & C). now rewrite C.
    + assert (L : lenN s < lenN (s ++ sep :: r)) by (rewrite LA; unfold lenN; simpl; lia).
      destruct (cstr_nth m p _ _ H L) as [E NZ]. rewrite E. unfold nthN, lenN.
      rewrite Nat2N.id, app_nth2 by lia. rewrite Nat.sub_diag. simpl. rewrite N.eqb_refl. apply orb_true_r.
  - unfold lenN. lia.
Qed.

(** Non-vacuity: overlapping move in both directions, and a string copy. *)
Definition demo_mem : mem := fun a => if a <? 10 then a + 65 else 0.
Example memmove_overlap_example :
  bytes_at (RedMemMove demo_mem 2 0 5) 0 8 = [65;66;65;66;67;68;69;72] /\
  bytes_at (RedMemMove demo_mem 0 2 5) 0 8 = [67;68;69;70;71;70;71;72].
Proof. split; reflexivity. Qed.
Example cstr_example : cstr demo_mem 7 [72;73;74] /\ RedStrLen 10 demo_mem 7 = Some 3 /\
  bytes_at (RedStrNCpy demo_mem 20 7 5) 20 6 = [72;73;74;0;0;0].
Proof. repeat split; try reflexivity. intros [H|[H|[H|[]]]]; discriminate. Qed.
