(** C08: the inline and the external imap implement one flat bitmap. *)
From Verif Require Import Base Bitmap Geometry PropGeom ImapBytes.
From Verif Require FsState FsImap FsImapProof.
Ltac Zify.zify_post_hook ::= idtac.

(** * Specification: two sets of allocated blocks, the working and the committed one *)
Record flat := mkF { f_cur : N -> bool; f_com : N -> bool }.

Inductive iop :=
| OGet (working : bool) (b : N)        (* is a block allocated? *)
| OSet (b : N) (al : bool)             (* allocate or free a block in the working state *)
| OFind (start : N)                    (* find a block free in both states *)
| OCommit                              (* transaction point *)
| ORollback (junk : N -> list N).      (* rollback, or mount after a power loss *)

Inductive iout := RBit (r : res bool) | RUnit (r : res unit) | RBlock (r : res N) | RNone | RHang.

Definition range (a b : N) : list N := map (fun i => a + N.of_nat i) (seq 0 (N.to_nat (b - a))).

Section Flat.
Variables itab fa bc : N.   (* first block in the map, first allocable block, number of blocks *)
Definition in_map (b : N) : bool := (itab <=? b) && (b <? bc).
Definition free2 (f : flat) (b : N) : bool := negb (f_cur f b) && negb (f_com f b).
(** the allocable blocks in the order of the search *)
Definition order (start : N) : list N := range start bc ++ range fa start.
Definition flat_step (f : flat) (o : iop) : iout * flat :=
  match o with
  | OGet w b => (RBit (if in_map b then Ok (if w then f_cur f b else f_com f b) else Err EINVAL), f)
  | OSet b al =>
    if in_map b then
      if Bool.eqb (f_cur f b) al then (RUnit (Err EFUBAR), f)
      else (RUnit (Ok tt), mkF (upd (f_cur f) b al) (f_com f))
    else (RUnit (Err EINVAL), f)
  | OFind s =>
    (RBlock (if (fa <=? s) && (s <? bc) then
               match find (free2 f) (order s) with Some b => Ok b | None => Err ENOSPC end
             else Err EINVAL), f)
  | OCommit => (RNone, mkF (f_cur f) (f_cur f))
  | ORollback _ => (RNone, mkF (f_com f) (f_com f))
  end.
Fixpoint flat_run (f : flat) (l : list iop) : list iout * flat :=
  match l with
  | [] => ([], f)
  | o :: r => let (x, f1) := flat_step f o in let (xs, f2) := flat_run f1 r in (x :: xs, f2)
  end.
(** RedImapAllocBlock searches only if the count of free blocks is not zero: there is a free block (C06). *)
Definition legal_op (f : flat) (o : iop) : Prop :=
  match o with OFind s => exists b, fa <= b < bc /\ free2 f b = true | _ => True end.
Fixpoint legal (f : flat) (l : list iop) : Prop :=
  match l with [] => True | o :: r => legal_op f o /\ legal (snd (flat_step f o)) r end.
End Flat.

(** The same operations on the byte-level implementation. *)
Section Run.
Variables (k : vconf) (g : geom) (fuel : nat).
Definition imap_step (e : imst) (o : iop) : iout * imst :=
  match o with
  | OGet w b => (RBit (ImapGet k g (if w then e_cur e else negb (e_cur e)) b e), e)
  | OSet b al => let (r, e1) := ImapSet k g b al e in (RUnit r, e1)
  | OFind s => (match ImapFindFree k g fuel s e with Some r => RBlock r | None => RHang end, e)
  | OCommit => (RNone, ImapCommit e)
  | ORollback j => (RNone, ImapRollback g j e)
  end.
Fixpoint imap_run (e : imst) (l : list iop) : list iout * imst :=
  match l with
  | [] => ([], e)
  | o :: r => let (x, e1) := imap_step e o in let (xs, e2) := imap_run e1 r in (x :: xs, e2)
  end.
End Run.

(** * Searching *)
Definition dist (fa bc p t : N) : N := if p <=? t then t - p else (bc - p) + (t - fa).

Section Scan.
Variables (fa bc : N) (cur com full : N -> bool) (start : N).
Let f := mkF cur com.
Definition wrp (b : N) : N := if b =? bc then fa else b.
Fixpoint scan (n : nat) (p : N) : option (res N) :=
  match n with
  | O => None
  | S m =>
    let next p' := if p' =? start then Some (Err ENOSPC) else scan m p' in
    if full p then next (wrp (p + N.min 8 (bc - p)))
    else if negb (cur p) && negb (com p) then Some (Ok p)
    else next (wrp (p + 1))
  end.
Hypothesis FULL : forall p x, fa <= p < bc -> full p = true -> p <= x < p + 8 -> x < bc -> cur x = true.
Hypothesis ST : fa <= start < bc.
Variable t : N.
Hypothesis T : fa <= t < bc.
Hypothesis TF : negb (cur t) && negb (com t) = true.
Hypothesis FIRST : forall x, fa <= x < bc -> dist fa bc start x < dist fa bc start t -> negb (cur x) && negb (com x) = false.

Lemma scan_ok : forall n p, fa <= p < bc -> dist fa bc start p + dist fa bc p t = dist fa bc start t ->
  (N.to_nat (dist fa bc p t) < n)%nat -> scan n p = Some (Ok t).
Proof using All.
  induction n as [|n IH]; intros p P D F; [lia|]. cbn [scan].
  destruct (full p) eqn:FU.
  - set (m := N.min 8 (bc - p)).
    assert (M : 1 <= m /\ p + m <= bc /\ m <= 8) by (unfold m; lia). clearbody m.
    assert (TN : ~ (p <= t < p + m)).
    { intros X. rewrite (FULL p t P FU) in TF; [discriminate|lia|lia]. }
    assert (P' : fa <= wrp (p + m) < bc).
    { unfold wrp. destruct (N.eqb_spec (p + m) bc); lia. }
    assert (DP : dist fa bc (wrp (p + m)) t + m = dist fa bc p t
                 /\ dist fa bc start (wrp (p + m)) = dist fa bc start p + m).
    { unfold wrp, dist in *. clear IH FIRST FULL FU F.
      destruct (N.eqb_spec (p + m) bc);
        repeat match goal with |- context [?a <=? ?b] => destruct (N.leb_spec a b)
               | H : context [?a <=? ?b] |- _ => destruct (N.leb_spec a b) end; lia. }
    destruct DP as (D1 & D2).
    destruct (N.eqb_spec (wrp (p + m)) start) as [E|E].
    { rewrite E in D2. unfold dist at 1 in D2. rewrite N.leb_refl in D2. lia. }
    apply IH; lia.
  - destruct (negb (cur p) && negb (com p)) eqn:FR.
    + assert (E : dist fa bc start p = dist fa bc start t).
      { destruct (N.lt_ge_cases (dist fa bc start p) (dist fa bc start t)) as [L|L]; [|lia].
        rewrite (FIRST p P L) in FR. discriminate. }
      assert (dist fa bc p t = 0) by lia. f_equal. f_equal.
      unfold dist in H. destruct (N.leb_spec p t); lia.
    + assert (TN : p <> t). { intros ->. rewrite TF in FR. discriminate. }
      assert (P' : fa <= wrp (p + 1) < bc).
      { unfold wrp. destruct (N.eqb_spec (p + 1) bc); lia. }
      assert (DP : dist fa bc (wrp (p + 1)) t + 1 = dist fa bc p t
                   /\ dist fa bc start (wrp (p + 1)) = dist fa bc start p + 1).
      { unfold wrp, dist in *. clear IH FIRST FULL FU F.
        destruct (N.eqb_spec (p + 1) bc);
          repeat match goal with |- context [?a <=? ?b] => destruct (N.leb_spec a b)
                 | H : context [?a <=? ?b] |- _ => destruct (N.leb_spec a b) end; lia. }
      destruct DP as (D1 & D2).
      destruct (N.eqb_spec (wrp (p + 1)) start) as [E|E].
      { rewrite E in D2. unfold dist at 1 in D2. rewrite N.leb_refl in D2. lia. }
      apply IH; lia.
Qed.
End Scan.

Lemma range_in a b x : In x (range a b) <-> a <= x < b.
Proof.
  unfold range. rewrite in_map_iff. setoid_rewrite in_seq. split.
  - intros (i & <- & H). lia.
  - intros H. exists (N.to_nat (x - a)). lia.
Qed.
Lemma range_cons a b : a < b -> range a b = a :: range (a + 1) b.
Proof.
  intros H. unfold range. replace (N.to_nat (b - a)) with (S (N.to_nat (b - (a + 1)))) by lia.
  cbn [seq map]. f_equal; [lia|]. rewrite <- seq_shift, map_map. apply map_ext. intros; lia.
Qed.
Lemma range_nil a b : b <= a -> range a b = [].
Proof. intros H. unfold range. now replace (N.to_nat (b - a)) with O by lia. Qed.

Lemma find_range_first P b : forall n a, n = N.to_nat (b - a) -> forall t, find P (range a b) = Some t ->
  a <= t < b /\ P t = true /\ forall x, a <= x < t -> P x = false.
Proof.
  induction n; intros a E t H.
  - rewrite range_nil in H by lia. discriminate.
  - rewrite range_cons in H by lia. cbn [find] in H. destruct (P a) eqn:A.
    + injection H as <-. repeat split; auto; try lia; intros; lia.
    + destruct (IHn (a + 1) ltac:(lia) t H) as (H1 & H2 & H3). repeat split; auto; try lia.
      intros x X. destruct (N.eq_dec x a); [now subst|]. apply H3. lia.
Qed.
Lemma find_range_none P a b : find P (range a b) = None -> forall x, a <= x < b -> P x = false.
Proof. intros H x X. eapply find_none in H; [exact H|]. now apply range_in. Qed.

Lemma find_app {A} (P : A -> bool) l m : find P (l ++ m) = match find P l with Some x => Some x | None => find P m end.
Proof. induction l as [|a l IH]; [reflexivity|]. cbn. destruct (P a); auto. Qed.

(** [find] over the search order yields the first free block in the cyclic order *)
Lemma find_order_first fa bc f s t : fa <= s < bc -> find (free2 f) (order fa bc s) = Some t ->
  fa <= t < bc /\ free2 f t = true /\
  forall x, fa <= x < bc -> dist fa bc s x < dist fa bc s t -> free2 f x = false.
Proof.
  intros S H. unfold order in H. rewrite find_app in H.
  destruct (find (free2 f) (range s bc)) as [t'|] eqn:E.
  - injection H as ->. destruct (find_range_first _ _ _ _ eq_refl _ E) as (A & B & C).
    repeat split; auto; try lia. intros x X D. apply C. unfold dist in D.
    destruct (N.leb_spec s x), (N.leb_spec s t); lia.
  - pose proof (find_range_none _ _ _ E) as NN.
    destruct (find_range_first _ _ _ _ eq_refl _ H) as (A & B & C).
    repeat split; auto; try lia. intros x X D. unfold dist in D.
    destruct (N.leb_spec s x); [now apply NN|]. destruct (N.leb_spec s t); [lia|]. apply C. lia.
Qed.
Lemma find_order_some fa bc f s : fa <= s < bc -> (exists b, fa <= b < bc /\ free2 f b = true) ->
  exists t, find (free2 f) (order fa bc s) = Some t.
Proof.
  intros S (b & B & FB). destruct (find (free2 f) (order fa bc s)) as [t|] eqn:E; [eauto|].
  eapply find_none in E; [rewrite FB in E; discriminate|].
  unfold order. apply in_app_iff. rewrite !range_in. lia.
Qed.

Lemma scan_find fa bc cur com full s n :
  (forall p x, fa <= p < bc -> full p = true -> p <= x < p + 8 -> x < bc -> cur x = true) ->
  fa <= s < bc -> (exists b, fa <= b < bc /\ free2 (mkF cur com) b = true) -> (N.to_nat (bc - fa) <= n)%nat ->
  exists t, find (free2 (mkF cur com)) (order fa bc s) = Some t /\ scan fa bc cur com full s n s = Some (Ok t).
Proof.
  intros FU S EX F. destruct (find_order_some fa bc _ s S EX) as (t & E). exists t. split; auto.
  destruct (find_order_first fa bc _ s t S E) as (A & B & C).
  apply scan_ok; auto.
  - unfold dist at 1. rewrite N.leb_refl. lia.
  - unfold dist. destruct (N.leb_spec s t); lia.
Qed.

(** * The refinement *)
Ltac ands := repeat match goal with |- _ /\ _ => split end.

Section Refine.
Variables (k : vconf) (i : bdevinfo) (g : geom).
Hypothesis TY : vconf_typed k.
Hypothesis OK : RedVolInitGeometry k i = Some (Ok g).
Hypothesis W1 : ge_bc g + IMAPNODE_ENTRIES k < 4294967296 + 2.
Hypothesis W2 : ge_itab g + 2 * k_icount k < 4294967296.
Hypothesis TOG : ge_nodes g <= METAROOT_ENTRIES k.

Let E := IMAPNODE_ENTRIES k.

Definition map_ok (n : N) (l : list N) : Prop := bytes_ok l /\ lenN l * 8 = n.

(** The byte-level state [e] represents the flat maps [f]. *)
Record Rel (e : imst) (f : flat) : Prop := {
  r_mr : forall w, map_ok (METAROOT_ENTRIES k) (e_mr e w);
  r_nd : forall w n, n < ge_nodes g -> map_ok (IMAPNODE_ENTRIES k) (e_nd e (NodeBlock g w n e));
  r_cur : forall b, ge_itab g <= b < ge_bc g -> f_cur f b =
     if ge_inline g then RedBitGet (e_mr e (e_cur e)) (b - ge_itab g)
     else RedBitGet (e_nd e (NodeBlock g (e_cur e) ((b - ge_itab g) / E) e)) ((b - ge_itab g) mod E);
  r_com : forall b, ge_itab g <= b < ge_bc g -> f_com f b =
     if ge_inline g then RedBitGet (e_mr e (negb (e_cur e))) (b - ge_itab g)
     else RedBitGet (e_nd e (NodeBlock g (negb (e_cur e)) ((b - ge_itab g) / E) e)) ((b - ge_itab g) mod E);
  (* no node written since the last transaction point is a node of the committed state *)
  r_wr : forall b n, In b (e_wr e) -> n < ge_nodes g -> b <> NodeBlock g (negb (e_cur e)) n e }.

Lemma E_pos : 0 < E /\ exists m, 0 < m /\ E = 8 * m.
Proof using TY. clear - TY E. pose proof (entries_ge k TY). unfold E. split; [lia|].
  exists (k_bs k - 16). unfold IMAPNODE_ENTRIES in *. lia. Qed.

Lemma inl_bit b : ge_inline g = true -> ge_itab g <= b < ge_bc g -> (b - ge_itab g) < METAROOT_ENTRIES k.
Proof using TY OK W1 W2 TOG. intros I B. pose proof (C14_imap_bit k i g TY OK W1 W2 b B) as H. now rewrite I in H. Qed.
Lemma ext_bit b : ge_inline g = false -> ge_itab g <= b < ge_bc g -> (b - ge_itab g) / E < ge_nodes g.
Proof using TY OK W1 W2 TOG. intros I B. pose proof (C14_imap_bit k i g TY OK W1 W2 b B) as H. now rewrite I in H. Qed.
Lemma fa_itab : ge_itab g <= ge_fa g.
Proof using TY OK W1 W2 TOG. rewrite (fa_eq k i g TY OK W1 W2), (itab_eq k i g TY OK W1). lia. Qed.

Lemma in_map_out b : out_of_map g b = negb (in_map (ge_itab g) (ge_bc g) b).
Proof using. clear. unfold out_of_map, in_map. destruct (N.ltb_spec b (ge_itab g)), (N.leb_spec (ge_itab g) b); try lia; cbn [orb andb negb]; auto;
  destruct (N.leb_spec (ge_bc g) b), (N.ltb_spec b (ge_bc g)); lia || reflexivity. Qed.
Lemma in_map_spec b : in_map (ge_itab g) (ge_bc g) b = true <-> ge_itab g <= b < ge_bc g.
Proof using. clear. unfold in_map. rewrite andb_true_iff, N.leb_le, N.ltb_lt. tauto. Qed.

Lemma div8_lt n l o : map_ok n l -> o < n -> o / 8 < lenN l.
Proof using. clear. intros (_ & H) L. apply N.div_lt_upper_bound; lia. Qed.

Lemma map_ok_set n l o : map_ok n l -> map_ok n (RedBitSet l o).
Proof using. clear. intros (A & B). split; [now apply RedBitSet_bytes_ok|now rewrite RedBitSet_length]. Qed.
Lemma map_ok_clear n l o : map_ok n l -> map_ok n (RedBitClear l o).
Proof using. clear. intros (A & B). split; [now apply RedBitClear_bytes_ok|now rewrite RedBitClear_length]. Qed.

Lemma bit_upd n l o al j : map_ok n l -> o < n ->
  RedBitGet (if al : bool then RedBitSet l o else RedBitClear l o) j = if j =? o then al else RedBitGet l j.
Proof using.
  clear. intros M L. pose proof (div8_lt _ _ _ M L). destruct al; [now apply RedBitGet_Set|].
  apply RedBitGet_Clear; auto. apply M.
Qed.

(** location of a node *)
Lemma nb_val w n e : n < ge_nodes g -> NodeBlock g w n e = 3 + 2 * n + (if RedBitGet (e_mr e w) n then 1 else 0).
Proof using TY OK W1 W2 TOG. intros H. unfold NodeBlock. now apply (place_imap k i g TY OK W1 W2). Qed.

Lemma nb_inj w n e w' n' e' : n < ge_nodes g -> n' < ge_nodes g -> NodeBlock g w n e = NodeBlock g w' n' e' ->
  n = n' /\ RedBitGet (e_mr e w) n = RedBitGet (e_mr e' w') n'.
Proof using TY OK W1 W2 TOG.
  intros A B. rewrite !nb_val by auto. destruct (RedBitGet (e_mr e w) n), (RedBitGet (e_mr e' w') n'); intros; split; auto; lia.
Qed.

Lemma branched_iff w n e : ImapNodeIsBranched n e = negb (Bool.eqb (RedBitGet (e_mr e w) n) (RedBitGet (e_mr e (negb w)) n)).
Proof using. clear. unfold ImapNodeIsBranched, e_mr. destruct w; cbn [negb]; auto. f_equal.
  destruct (RedBitGet (e_mr0 e) n), (RedBitGet (e_mr1 e) n); reflexivity. Qed.

Lemma mr_set w l e : e_mr (set_mr w l e) w = l. Proof using. clear. now destruct w. Qed.
Lemma mr_set' w l e : e_mr (set_mr w l e) (negb w) = e_mr e (negb w). Proof using. clear. now destruct w. Qed.
Lemma cur_set w l e : e_cur (set_mr w l e) = e_cur e. Proof using. clear. now destruct w. Qed.
Lemma nd_set w l e : e_nd (set_mr w l e) = e_nd e. Proof using. clear. now destruct w. Qed.
Lemma wr_set w l e : e_wr (set_mr w l e) = e_wr e. Proof using. clear. now destruct w. Qed.
Lemma nb_store w n b l e : NodeBlock g w n (store b l e) = NodeBlock g w n e.
Proof using. clear. unfold NodeBlock, store, e_mr. cbn. reflexivity. Qed.

(** get *)
Lemma get_ok e f (w : bool) b : Rel e f ->
  ImapGet k g (if w then e_cur e else negb (e_cur e)) b e =
  (if in_map (ge_itab g) (ge_bc g) b then Ok (if w : bool then f_cur f b else f_com f b) else Err EINVAL).
Proof using TY OK W1 W2 TOG.
  intros R. unfold ImapGet, RedImapIBlockGet, RedImapEBlockGet. rewrite in_map_out.
  destruct (in_map (ge_itab g) (ge_bc g) b) eqn:IM; cbn [negb orb]; [|rewrite !orb_true_r; now destruct (ge_inline g)].
  apply in_map_spec in IM. rewrite (r_cur _ _ R b IM), (r_com _ _ R b IM).
  destruct (ge_inline g) eqn:I; cbn [negb orb].
  - now destruct w.
  - cbv zeta. fold E. f_equal.
    destruct w.
    + assert (X : Bool.eqb (e_cur e) (negb (e_cur e)) = false) by (now destruct (e_cur e)). now rewrite X.
    + rewrite Bool.eqb_reflx. cbn [andb].
      destruct (ImapNodeIsBranched _ e) eqn:BR; cbn [negb]; [reflexivity|].
      rewrite (branched_iff (e_cur e)) in BR. apply negb_false_iff, Bool.eqb_prop in BR.
      rewrite negb_involutive. unfold NodeBlock. now rewrite BR.
Qed.

(** set, external: the node is branched first *)
Lemma branch_ok e f n : Rel e f -> ge_inline g = false -> n < ge_nodes g ->
  exists e', ImapNodeBranch g n e = (Ok (NodeBlock g (e_cur e') n e'), e') /\ Rel e' f
    /\ e_cur e' = e_cur e /\ NodeBlock g (e_cur e') n e' <> NodeBlock g (negb (e_cur e')) n e'
    /\ (forall m, NodeBlock g (negb (e_cur e)) m e' = NodeBlock g (negb (e_cur e)) m e)
    /\ (forall m, m < ge_nodes g -> e_nd e' (NodeBlock g (negb (e_cur e)) m e) = e_nd e (NodeBlock g (negb (e_cur e)) m e)).
Proof using TY OK W1 W2 TOG.
  intros R I NN. unfold ImapNodeBranch. destruct (N.leb_spec (ge_nodes g) n); [lia|].
  destruct (ImapNodeIsBranched n e) eqn:BR.
  - cbv zeta. set (b := NodeBlock g (e_cur e) n e). set (e' := store b (e_nd e b) e).
    assert (ND : forall x, e_nd e' x = e_nd e x).
    { intros x. unfold e', store; cbn. unfold upd. destruct (N.eqb_spec x b); congruence. }
    rewrite (branched_iff (e_cur e)) in BR.
    assert (NE : b <> NodeBlock g (negb (e_cur e)) n e).
    { intros X. apply nb_inj in X as (_ & X); auto. rewrite X, Bool.eqb_reflx in BR. discriminate. }
    exists e'. split; [reflexivity|]. split; [|repeat split; auto].
    split; unfold e' in *; cbn [e_mr e_cur store e_mr0 e_mr1 e_wr].
    + apply (r_mr _ _ R).
    + intros w m M. rewrite nb_store, ND. now apply (r_nd _ _ R).
    + intros x X. rewrite I, nb_store, ND. pose proof (r_cur _ _ R x X) as Y. now rewrite I in Y.
    + intros x X. rewrite I, nb_store, ND. pose proof (r_com _ _ R x X) as Y. now rewrite I in Y.
    + intros x m X M. rewrite nb_store. apply in_app_iff in X as [X|[<-|[]]]; [now apply (r_wr _ _ R)|].
      intros Y. pose proof Y as Y2. apply nb_inj in Y2 as (-> & _); auto.
  - cbv zeta. set (l := e_mr e (e_cur e)).
    set (l' := if RedBitGet l n then RedBitClear l n else RedBitSet l n).
    set (e1 := set_mr (e_cur e) l' e).
    rewrite (branched_iff (e_cur e)) in BR. apply negb_false_iff, Bool.eqb_prop in BR. fold l in BR.
    assert (C1 : e_cur e1 = e_cur e) by apply cur_set. rewrite C1.
    assert (LM : map_ok (METAROOT_ENTRIES k) l) by apply (r_mr _ _ R).
    assert (LM' : map_ok (METAROOT_ENTRIES k) l').
    { unfold l'. destruct (RedBitGet l n); [now apply map_ok_clear|now apply map_ok_set]. }
    assert (LB : forall m, RedBitGet l' m = if m =? n then negb (RedBitGet l n) else RedBitGet l m).
    { intros m. unfold l'. pose proof (fun al => bit_upd _ l n al m LM ltac:(lia)) as U.
      destruct (RedBitGet l n) eqn:X; [specialize (U false)|specialize (U true)]; cbn [negb] in U |- *; exact U. }
    assert (NB' : forall m, NodeBlock g (negb (e_cur e)) m e1 = NodeBlock g (negb (e_cur e)) m e).
    { intros m. unfold NodeBlock, e1. now rewrite mr_set'. }
    assert (NB : forall m, NodeBlock g (e_cur e) m e1 = RedImapNodeBlock g m (RedBitGet l' m)).
    { intros m. unfold NodeBlock, e1. now rewrite mr_set. }
    set (bc := NodeBlock g (e_cur e) n e1). set (bo := NodeBlock g (negb (e_cur e)) n e1).
    assert (NBO : forall m, m <> n -> NodeBlock g (e_cur e) m e1 = NodeBlock g (e_cur e) m e).
    { intros m M. rewrite NB, LB. destruct (N.eqb_spec m n); [lia|]. reflexivity. }
    assert (NE : bc <> bo).
    { unfold bc, bo. intros X. apply nb_inj in X as (_ & X); auto. unfold e1 in X. rewrite mr_set, mr_set', LB, N.eqb_refl in X.
      rewrite <- BR in X. now destruct (RedBitGet l n). }
    assert (BO : e_nd e1 bo = e_nd e (NodeBlock g (e_cur e) n e)).
    { unfold e1 at 1. rewrite nd_set. f_equal. unfold bo. rewrite NB'. unfold NodeBlock. fold l. now rewrite BR. }
    set (e' := store bc (e_nd e1 bo) e1).
    assert (CE : e_cur e' = e_cur e) by exact C1.
    assert (OTH : forall w m, m < ge_nodes g -> m <> n -> e_nd e' (NodeBlock g w m e1) = e_nd e (NodeBlock g w m e1)).
    { intros w m M MN. unfold e'. cbn [store e_nd]. rewrite upd_other.
      - unfold e1 at 1. now rewrite nd_set.
      - unfold bc. intros X. apply nb_inj in X as (X & _); auto. }
    assert (COM : forall m, m < ge_nodes g -> e_nd e' (NodeBlock g (negb (e_cur e)) m e) = e_nd e (NodeBlock g (negb (e_cur e)) m e)).
    { intros m M. destruct (N.eq_dec m n) as [->|MN].
      - unfold e'. cbn [store e_nd]. rewrite upd_other.
        + unfold e1. now rewrite nd_set.
        + rewrite <- NB'. fold bo. auto.
      - rewrite <- NB'. now apply OTH. }
    assert (CUR : forall m, m < ge_nodes g -> e_nd e' (NodeBlock g (e_cur e) m e1) = e_nd e (NodeBlock g (e_cur e) m e)).
    { intros m M. destruct (N.eq_dec m n) as [->|MN].
      - fold bc. unfold e'. cbn [store e_nd]. now rewrite upd_same.
      - rewrite OTH by auto. now rewrite NBO. }
    exists e'. rewrite CE. split; [unfold e'; now rewrite nb_store|]. split; [|split; [auto|split; [|split]]].
    + split.
      * intros w. unfold e', e1. destruct (Bool.bool_dec w (e_cur e)) as [->|X].
        -- change (map_ok (METAROOT_ENTRIES k) (e_mr (set_mr (e_cur e) l' e) (e_cur e))). now rewrite mr_set.
        -- assert (w = negb (e_cur e)) as -> by (now destruct w, (e_cur e)).
           change (map_ok (METAROOT_ENTRIES k) (e_mr (set_mr (e_cur e) l' e) (negb (e_cur e)))). rewrite mr_set'. apply (r_mr _ _ R).
      * intros w m M. unfold e' at 2. rewrite nb_store.
        destruct (Bool.bool_dec w (e_cur e)) as [->|X].
        -- rewrite CUR by auto. now apply (r_nd _ _ R).
        -- assert (w = negb (e_cur e)) as -> by (now destruct w, (e_cur e)).
           rewrite NB', COM by auto. now apply (r_nd _ _ R).
      * intros x X. rewrite I, CE. unfold e' at 2. rewrite nb_store, CUR by (now apply ext_bit).
        pose proof (r_cur _ _ R x X) as Y. now rewrite I in Y.
      * intros x X. rewrite I, CE. unfold e' at 2. rewrite nb_store, NB', COM by (now apply ext_bit).
        pose proof (r_com _ _ R x X) as Y. now rewrite I in Y.
      * intros x m X M. rewrite CE. unfold e'. rewrite nb_store, NB'.
        unfold e', e1 in X. cbn [store e_wr] in X. rewrite wr_set in X.
        apply in_app_iff in X as [X|[<-|[]]]; [now apply (r_wr _ _ R)|].
        fold e1. rewrite <- NB'. intros Y. pose proof Y as Y2. apply nb_inj in Y2 as (-> & _); auto.
    + unfold e'. rewrite !nb_store. exact NE.
    + intros m. unfold e'. now rewrite nb_store.
    + exact COM.
Qed.

Lemma set_ok e f b al : Rel e f ->
  exists r e', ImapSet k g b al e = (r, e')
    /\ fst (flat_step (ge_itab g) (ge_fa g) (ge_bc g) f (OSet b al)) = RUnit r
    /\ Rel e' (snd (flat_step (ge_itab g) (ge_fa g) (ge_bc g) f (OSet b al)))
    /\ e_cur e' = e_cur e
    /\ (forall m, NodeBlock g (negb (e_cur e)) m e' = NodeBlock g (negb (e_cur e)) m e)
    /\ (forall m, m < ge_nodes g -> e_nd e' (NodeBlock g (negb (e_cur e)) m e) = e_nd e (NodeBlock g (negb (e_cur e)) m e)).
Proof using TY OK W1 W2 TOG.
  intros R. unfold ImapSet. cbn [flat_step].
  destruct (in_map (ge_itab g) (ge_bc g) b) eqn:IM.
  2:{ unfold RedImapIBlockSet, RedImapEBlockSet. rewrite in_map_out, IM. cbn [negb]. rewrite !orb_true_r.
      exists (Err EINVAL), e. destruct (ge_inline g); cbn [fst snd]; ands; auto. }
  pose proof (proj1 (in_map_spec b) IM) as B. destruct (ge_inline g) eqn:I.
  - unfold RedImapIBlockSet. rewrite in_map_out, IM, I. cbn [negb orb]. cbv zeta.
    pose proof (r_cur _ _ R b B) as CB. rewrite I in CB. rewrite <- CB.
    destruct (Bool.eqb (f_cur f b) al) eqn:Q; cbn [fst snd].
    { exists (Err EFUBAR), e. ands; auto. }
    set (l := e_mr e (e_cur e)) in *. set (o := b - ge_itab g) in *.
    set (l' := if al then RedBitSet l o else RedBitClear l o).
    exists (Ok tt), (set_mr (e_cur e) l' e). split; [unfold l'; now destruct al|]. split; [reflexivity|].
    pose proof (inl_bit b I B) as OB. fold o in OB.
    assert (LM : map_ok (METAROOT_ENTRIES k) l) by apply (r_mr _ _ R).
    assert (N0 : ge_nodes g = 0).
    { rewrite (gf_nodes _ _ _ (geometry_facts k i g TY OK)), I. reflexivity. }
    split; [|split; [apply cur_set|split; [|intros; lia]]].
    + split.
      * intros w. destruct (Bool.bool_dec w (e_cur e)) as [->|X].
        -- rewrite mr_set. unfold l'. destruct al; [now apply map_ok_set|now apply map_ok_clear].
        -- assert (w = negb (e_cur e)) as -> by (now destruct w, (e_cur e)). rewrite mr_set'. apply (r_mr _ _ R).
      * intros; lia.
      * intros x X. rewrite I, cur_set, mr_set. cbn [f_cur]. unfold l'. rewrite (bit_upd _ _ _ _ _ LM OB).
        unfold upd. pose proof (r_cur _ _ R x X) as Y. rewrite I in Y. fold l in Y.
        destruct (N.eqb_spec x b) as [->|NE]; [now rewrite N.eqb_refl|].
        destruct (N.eqb_spec (x - ge_itab g) o); [unfold o in *; lia|exact Y].
      * intros x X. rewrite I, cur_set, mr_set'. cbn [f_com]. pose proof (r_com _ _ R x X) as Y. now rewrite I in Y.
      * intros; lia.
    + intros m. unfold NodeBlock. now rewrite mr_set'.
  - unfold RedImapEBlockSet. rewrite in_map_out, IM, I. cbn [negb orb]. cbv zeta. fold E.
    set (o := b - ge_itab g) in *. pose proof (ext_bit b I B) as NB. fold o in NB.
    destruct (branch_ok e f (o / E) R I NB) as (e1 & BE & R1 & C1 & NE & CN & CM). rewrite BE.
    set (blk := NodeBlock g (e_cur e1) (o / E) e1) in *.
    pose proof (r_cur _ _ R1 b B) as CB. rewrite I in CB. fold o in CB. fold blk in CB. rewrite <- CB.
    destruct (Bool.eqb (f_cur f b) al) eqn:Q; cbn [fst snd].
    { exists (Err EFUBAR), e1. ands; auto. }
    set (l := e_nd e1 blk) in *. set (l' := if al then RedBitSet l (o mod E) else RedBitClear l (o mod E)).
    set (e2 := store blk l' e1).
    exists (Ok tt), e2. split; [reflexivity|]. split; [reflexivity|].
    pose proof (proj1 E_pos) as EP.
    assert (LM : map_ok E l) by (apply (r_nd _ _ R1); auto).
    assert (OB : o mod E < E) by (apply N.mod_lt; lia).
    assert (OTH : forall x, x <> blk -> e_nd e2 x = e_nd e1 x) by (intros; unfold e2; cbn; now rewrite upd_other).
    assert (COM : forall m, m < ge_nodes g -> NodeBlock g (negb (e_cur e1)) m e1 <> blk).
    { intros m M X. pose proof X as X2. apply nb_inj in X2 as (-> & _); auto. }
    split; [|split; [exact C1|split; [|]]].
    + split.
      * intros w. apply (r_mr _ _ R1).
      * intros w m M. unfold e2 at 2. rewrite nb_store. destruct (N.eq_dec (NodeBlock g w m e1) blk) as [X|X].
        -- rewrite X. unfold e2. cbn. rewrite upd_same. unfold l'. destruct al; [now apply map_ok_set|now apply map_ok_clear].
        -- rewrite OTH by auto. now apply (r_nd _ _ R1).
      * intros x X. rewrite I. change (e_cur e2) with (e_cur e1). unfold e2 at 2. rewrite nb_store. cbn [f_cur].
        unfold upd. pose proof (r_cur _ _ R1 x X) as Y. rewrite I in Y. pose proof (ext_bit x I X) as XB.
        set (ox := x - ge_itab g) in *.
        destruct (N.eqb_spec x b) as [->|XNE].
        -- fold o in ox. subst ox. fold blk. unfold e2. cbn. rewrite upd_same. unfold l'. rewrite (bit_upd _ _ _ _ _ LM OB).
           now rewrite N.eqb_refl.
        -- destruct (N.eq_dec (ox / E) (o / E)) as [SN|SN].
           ++ rewrite SN in Y |- *. fold blk in Y |- *. unfold e2. cbn. rewrite upd_same. unfold l'.
              rewrite (bit_upd _ _ _ _ _ LM OB). destruct (N.eqb_spec (ox mod E) (o mod E)) as [SM|SM]; [|exact Y].
              exfalso. pose proof (N.div_mod ox E ltac:(lia)) as D1. pose proof (N.div_mod o E ltac:(lia)) as D2.
              rewrite SN, SM, <- D2 in D1. unfold ox, o in D1. lia.
           ++ rewrite OTH; [exact Y|]. intros Z. apply nb_inj in Z as (Z & _); auto.
      * intros x X. rewrite I. change (e_cur e2) with (e_cur e1). unfold e2 at 2. rewrite nb_store. cbn [f_com].
        pose proof (ext_bit x I X) as XB. rewrite OTH by (now apply COM).
        pose proof (r_com _ _ R1 x X) as Y. now rewrite I in Y.
      * intros x m X M. change (e_cur e2) with (e_cur e1). unfold e2. rewrite nb_store.
        unfold e2 in X. cbn [store e_wr] in X. apply in_app_iff in X as [X|[<-|[]]]; [now apply (r_wr _ _ R1)|].
        intros Y. symmetry in Y. now apply COM in Y.
    + intros m. unfold e2. now rewrite nb_store, CN.
    + intros m M. rewrite OTH; [now apply CM|]. rewrite <- CN, <- C1. now apply COM.
Qed.

(** find: the two loops are the scan *)
Lemma i_loop_scan e f s : Rel e f -> ge_inline g = true -> ge_fa g <= s < ge_bc g -> forall n p, ge_fa g <= p < ge_bc g ->
  i_loop g n s p e = scan (ge_fa g) (ge_bc g) (f_cur f) (f_com f)
    (fun p => (N.land (p - ge_itab g) 7 =? 0) && (nthN (e_mr e (e_cur e)) (N.shiftr (p - ge_itab g) 3) 0 =? UINT8_MAX)) s n p.
Proof using TY OK W1 W2 TOG.
  intros R I S. pose proof fa_itab as FI. induction n as [|n IH]; intros p P; [reflexivity|].
  cbn [i_loop scan]. cbv zeta.
  assert (C : f_cur f p = RedBitGet (e_mr e (e_cur e)) (p - ge_itab g)).
  { rewrite (r_cur _ _ R p ltac:(lia)). now rewrite I. }
  assert (D : f_com f p = RedBitGet (e_mr e (negb (e_cur e))) (p - ge_itab g)).
  { rewrite (r_com _ _ R p ltac:(lia)). now rewrite I. }
  rewrite C, D.
  assert (NX : forall q, ge_fa g <= q < ge_bc g ->
    (if q =? s then Some (Err ENOSPC) else i_loop g n s q e) =
    (if q =? s then Some (Err ENOSPC) else scan (ge_fa g) (ge_bc g) (f_cur f) (f_com f)
       (fun p => (N.land (p - ge_itab g) 7 =? 0) && (nthN (e_mr e (e_cur e)) (N.shiftr (p - ge_itab g) 3) 0 =? UINT8_MAX)) s n q)).
  { intros q Q. destruct (q =? s); auto. }
  destruct (_ && _) eqn:FU; [apply NX; unfold wrp; destruct (N.eqb_spec (p + N.min 8 (ge_bc g - p)) (ge_bc g)); lia|].
  destruct (negb _ && negb _); [reflexivity|]. apply NX. unfold wrp. destruct (N.eqb_spec (p + 1) (ge_bc g)); lia.
Qed.

Definition e_full (e : imst) (p : N) : bool :=
  let o := p - ge_itab g in
  (N.land (o mod E) 7 =? 0)
  && (nthN (e_nd e (NodeBlock g (e_cur e) (o / E) e)) (N.shiftr (o mod E) 3) 0 =? UINT8_MAX).

Lemma e_loop_scan e f s : Rel e f -> ge_inline g = false -> ge_fa g <= s < ge_bc g -> forall n p prev pm, ge_fa g <= p < ge_bc g ->
  (forall l, pm = Some l -> l = e_nd e (NodeBlock g (e_cur e) prev e)) ->
  e_loop k g n s p prev pm e = scan (ge_fa g) (ge_bc g) (f_cur f) (f_com f) (e_full e) s n p.
Proof using TY OK W1 W2 TOG.
  intros R I S. pose proof fa_itab as FI. induction n as [|n IH]; intros p prev pm P PM; [reflexivity|].
  cbn [e_loop scan]. cbv zeta. fold E. unfold e_full at 1. cbv zeta.
  set (o := p - ge_itab g). set (l := e_nd e (NodeBlock g (e_cur e) (o / E) e)).
  assert (C : f_cur f p = RedBitGet l (o mod E)).
  { rewrite (r_cur _ _ R p ltac:(lia)). now rewrite I. }
  assert (D : f_com f p = RedBitGet (e_nd e (NodeBlock g (negb (e_cur e)) (o / E) e)) (o mod E)).
  { rewrite (r_com _ _ R p ltac:(lia)). now rewrite I. }
  rewrite C, D.
  assert (X : exists prev', (forall x, x = l -> x = e_nd e (NodeBlock g (e_cur e) prev' e)) /\
    match (if match pm with Some _ => negb (o / E =? prev) | None => false end then None else pm) with
    | Some l => (prev, l) | None => (o / E, l) end = (prev', l)).
  { destruct pm as [l0|].
    - destruct (N.eqb_spec (o / E) prev) as [Q|Q]; cbn [negb].
      + exists prev. rewrite (PM l0 eq_refl), <- Q. auto.
      + exists (o / E). auto.
    - exists (o / E). auto. }
  destruct X as (prev' & PV & ->).
  assert (NX : forall q pm', ge_fa g <= q < ge_bc g -> (pm' = Some l \/ pm' = None) ->
    (if q =? s then Some (Err ENOSPC) else e_loop k g n s q prev' pm' e) =
    (if q =? s then Some (Err ENOSPC) else scan (ge_fa g) (ge_bc g) (f_cur f) (f_com f) (e_full e) s n q)).
  { intros q pm' Q PP. destruct (q =? s); auto. apply IH; auto. intros x ->. destruct PP as [PP|PP]; [|discriminate].
    injection PP as <-. auto. }
  destruct ((N.land (o mod E) 7 =? 0) && _) eqn:FU.
  { apply NX; auto. unfold wrp, skip, wrap. destruct (N.eqb_spec (p + N.min 8 (ge_bc g - p)) (ge_bc g)); lia. }
  assert (W : ge_fa g <= wrap g (p + 1) < ge_bc g).
  { unfold wrap. destruct (N.eqb_spec (p + 1) (ge_bc g)); lia. }
  destruct (negb (RedBitGet l (o mod E))); cbn [andb]; [|now apply NX; auto].
  destruct (negb (RedBitGet (e_nd e _) (o mod E))); [reflexivity|]. now apply NX; auto.
Qed.

Lemma find_ok e f s n : Rel e f -> (N.to_nat (ge_bc g - ge_fa g) <= n)%nat ->
  (exists b, ge_fa g <= b < ge_bc g /\ free2 f b = true) ->
  exists r, ImapFindFree k g n s e = Some r
    /\ fst (flat_step (ge_itab g) (ge_fa g) (ge_bc g) f (OFind s)) = RBlock r.
Proof using TY OK W1 W2 TOG.
  intros R F EX. unfold ImapFindFree, RedImapIBlockFindFree, RedImapEBlockFindFree. cbn [flat_step fst].
  pose proof fa_itab as FI. pose proof (proj1 E_pos) as EP.
  destruct (N.leb_spec (ge_fa g) s) as [S1|S1]; cbn [andb].
  2:{ assert (X : s <? ge_fa g = true) by (now apply N.ltb_lt). rewrite X. destruct (ge_inline g); cbn; eauto. }
  assert (X1 : s <? ge_fa g = false) by (apply N.ltb_ge; lia). rewrite X1.
  destruct (N.ltb_spec s (ge_bc g)) as [S2|S2].
  2:{ assert (X : ge_bc g <=? s = true) by (now apply N.leb_le). rewrite X. destruct (ge_inline g); cbn; eauto. }
  assert (X2 : ge_bc g <=? s = false) by (apply N.leb_gt; lia). rewrite X2.
  assert (FE : f = mkF (f_cur f) (f_com f)) by (now destruct f).
  destruct (ge_inline g) eqn:I; cbn [negb orb].
  - rewrite (i_loop_scan e f s R I ltac:(lia)) by lia.
    match goal with |- context [scan _ _ _ _ ?fu _ _ _] =>
      destruct (scan_find (ge_fa g) (ge_bc g) (f_cur f) (f_com f) fu s n) as (t & T1 & T2) end; auto; try lia.
    + intros p x P FU X XB. apply andb_true_iff in FU as (F1 & F2). apply N.eqb_eq in F1, F2.
      rewrite land7 in F1. rewrite shiftr3 in F2.
      rewrite (r_cur _ _ R x ltac:(lia)), I. apply (byte_ff_bits _ ((p - ge_itab g) / 8)); [exact F2|].
      pose proof (N.div_mod (p - ge_itab g) 8 ltac:(lia)) as DM.
      symmetry. apply N.div_unique with (x - p); lia.
    + rewrite T2. exists (Ok t). rewrite <- FE in T1. rewrite T1. auto.
  - rewrite (e_loop_scan e f s R I ltac:(lia)) by (lia || discriminate).
    destruct (scan_find (ge_fa g) (ge_bc g) (f_cur f) (f_com f) (e_full e) s n) as (t & T1 & T2); auto; try lia.
    + intros p x P FU X XB. unfold e_full in FU. cbv zeta in FU. apply andb_true_iff in FU as (F1 & F2). apply N.eqb_eq in F1, F2.
      rewrite land7 in F1. rewrite shiftr3 in F2. set (o := p - ge_itab g) in *.
      rewrite (r_cur _ _ R x ltac:(lia)), I.
      destruct E_pos as (_ & m & M0 & EM).
      pose proof (N.div_mod o E ltac:(lia)) as D1. pose proof (N.mod_lt o E ltac:(lia)) as D2.
      pose proof (N.div_mod (o mod E) 8 ltac:(lia)) as D3. rewrite F1 in D3.
      assert (L8 : o mod E + (x - p) < E) by (clear - EM D2 D3 X; lia).
      assert (OX : x - ge_itab g = E * (o / E) + (o mod E + (x - p))) by (unfold o in *; lia).
      assert (Q1 : (x - ge_itab g) / E = o / E) by (symmetry; now apply N.div_unique with (o mod E + (x - p))).
      assert (Q2 : (x - ge_itab g) mod E = o mod E + (x - p)) by (symmetry; now apply N.mod_unique with (o / E)).
      rewrite Q1, Q2. apply (byte_ff_bits _ (o mod E / 8)); [exact F2|].
      symmetry. apply N.div_unique with (x - p); lia.
    + rewrite T2. exists (Ok t). rewrite <- FE in T1. rewrite T1. auto.
Qed.

Lemma commit_ok e f : Rel e f -> Rel (ImapCommit e) (mkF (f_cur f) (f_cur f)).
Proof using TY OK W1 W2 TOG.
  intros R. unfold ImapCommit. cbv zeta. set (l := e_mr e (e_cur e)).
  set (e' := mkE _ _ _ _ _).
  assert (MR : forall w, e_mr e' w = l) by (intros []; reflexivity).
  assert (NB : forall w n, NodeBlock g w n e' = NodeBlock g (e_cur e) n e) by (intros; unfold NodeBlock; now rewrite MR).
  split; cbn [f_cur f_com].
  - intros w. rewrite MR. apply (r_mr _ _ R).
  - intros w n NN. rewrite NB. now apply (r_nd _ _ R).
  - intros b B. rewrite MR, NB. apply (r_cur _ _ R b B).
  - intros b B. rewrite MR, NB. apply (r_cur _ _ R b B).
  - intros b n [].
Qed.

Lemma rollback_ok e f j : Rel e f -> Rel (ImapRollback g j e) (mkF (f_com f) (f_com f)).
Proof using TY OK W1 W2 TOG.
  intros R. unfold ImapRollback. cbv zeta. set (l := e_mr e (negb (e_cur e))).
  set (e' := mkE _ _ _ _ _).
  assert (MR : forall w, e_mr e' w = l) by (intros []; reflexivity).
  assert (NB : forall w n, NodeBlock g w n e' = NodeBlock g (negb (e_cur e)) n e) by (intros; unfold NodeBlock; now rewrite MR).
  assert (ND : forall n, n < ge_nodes g -> e_nd e' (NodeBlock g (negb (e_cur e)) n e) = e_nd e (NodeBlock g (negb (e_cur e)) n e)).
  { intros n NN. unfold e'. cbn [e_nd].
    replace (existsb _ _) with true; [reflexivity|]. symmetry. apply existsb_exists. exists n. split.
    - apply in_map_iff. exists (N.to_nat n). split; [apply N2Nat.id|]. apply in_seq. lia.
    - apply N.eqb_refl. }
  split; cbn [f_cur f_com].
  - intros w. rewrite MR. apply (r_mr _ _ R).
  - intros w n NN. rewrite NB, ND by auto. now apply (r_nd _ _ R).
  - intros b B. rewrite MR, NB. rewrite (r_com _ _ R b B). fold l. destruct (ge_inline g) eqn:I; auto.
    rewrite ND by (now apply ext_bit). reflexivity.
  - intros b B. rewrite MR, NB. rewrite (r_com _ _ R b B). fold l. destruct (ge_inline g) eqn:I; auto.
    rewrite ND by (now apply ext_bit). reflexivity.
  - intros b n [].
Qed.

(** C08: any sequence of operations gives exactly the results of the flat bitmap, with either
    implementation and any number of nodes. *)
Theorem C08_flat : forall fuel, (N.to_nat (ge_bc g - ge_fa g) <= fuel)%nat ->
  forall ops e f, Rel e f -> legal (ge_itab g) (ge_fa g) (ge_bc g) f ops ->
  fst (imap_run k g fuel e ops) = fst (flat_run (ge_itab g) (ge_fa g) (ge_bc g) f ops)
  /\ Rel (snd (imap_run k g fuel e ops)) (snd (flat_run (ge_itab g) (ge_fa g) (ge_bc g) f ops)).
Proof using TY OK W1 W2 TOG.
  intros fuel F. induction ops as [|o r IH]; intros e f R L; [now split|].
  cbn [legal] in L. destruct L as (L1 & L2). cbn [imap_run flat_run].
  assert (ST : exists e1, imap_step k g fuel e o = (fst (flat_step (ge_itab g) (ge_fa g) (ge_bc g) f o), e1)
               /\ Rel e1 (snd (flat_step (ge_itab g) (ge_fa g) (ge_bc g) f o))).
  { destruct o as [w b|b al|s| |j]; cbn [imap_step].
    - exists e. cbn [flat_step fst snd]. rewrite (get_ok e f w b R). auto.
    - destruct (set_ok e f b al R) as (x & e1 & -> & A & B & _). exists e1. rewrite A. auto.
    - cbn [legal_op] in L1. destruct (find_ok e f s fuel R F L1) as (x & -> & A). exists e. rewrite A. auto.
    - exists (ImapCommit e). split; auto. cbn [flat_step snd]. now apply commit_ok.
    - exists (ImapRollback g j e). split; auto. cbn [flat_step snd]. now apply rollback_ok. }
  destruct ST as (e1 & -> & R1). destruct (flat_step _ _ _ f o) as [x f1]. cbn [fst snd] in *.
  destruct (IH e1 f1 R1 L2) as (A & B).
  destruct (imap_run k g fuel e1 r), (flat_run _ _ _ f1 r). cbn [fst snd] in *. split; [now f_equal|auto].
Qed.

(** C08: between transaction points no node copy of the committed state changes or is written. *)
Theorem C08_committed_nodes : forall fuel e f b al x e', Rel e f ->
  imap_step k g fuel e (OSet b al) = (x, e') ->
  forall n, n < ge_nodes g ->
    NodeBlock g (negb (e_cur e')) n e' = NodeBlock g (negb (e_cur e)) n e
    /\ e_nd e' (NodeBlock g (negb (e_cur e)) n e) = e_nd e (NodeBlock g (negb (e_cur e)) n e)
    /\ ~ In (NodeBlock g (negb (e_cur e)) n e) (e_wr e').
Proof using TY OK W1 W2 TOG.
  intros fuel e f b al x e' R H n NN. cbn [imap_step] in H.
  destruct (set_ok e f b al R) as (r & e1 & Q & _ & R1 & C & N1 & N2). rewrite Q in H. injection H as _ <-.
  rewrite C, N1, N2 by auto. repeat split. intros X. apply (r_wr _ _ R1 _ n X NN). now rewrite C, N1.
Qed.

(** A freshly formatted map (format.c:96-127) is the empty flat map. *)
Definition blank (cur : bool) : imst :=
  let z := repeat 0 (N.to_nat (METAROOT_ENTRIES k / 8)) in
  mkE z z cur (fun _ => repeat 0 (N.to_nat (IMAPNODE_ENTRIES k / 8))) [].
Lemma zeros_ok n : map_ok (8 * n) (repeat 0 (N.to_nat (8 * n / 8))).
Proof using.
  clear. rewrite N.mul_comm, N.div_mul by lia. split.
  - unfold bytes_ok. apply Forall_forall. intros x X. apply repeat_spec in X. lia.
  - unfold lenN. rewrite repeat_length. lia.
Qed.
Lemma zeros_bit n j : RedBitGet (repeat 0 n) j = false.
Proof using.
  clear. unfold RedBitGet, nthN. replace (nth _ (repeat 0 n) 0) with 0; [reflexivity|].
  symmetry. generalize (N.to_nat (N.shiftr j 3)). induction n as [|n IH]; intros [|m]; cbn; auto.
Qed.
Theorem C08_blank : forall c, Rel (blank c) (mkF (fun _ => false) (fun _ => false)).
Proof using.
  intros c. unfold blank. cbv zeta. set (z := repeat 0 (N.to_nat (METAROOT_ENTRIES k / 8))). set (e := mkE _ _ _ _ _).
  assert (MR : forall w, e_mr e w = z) by (intros []; reflexivity).
  split.
  - intros w. rewrite MR. unfold z. unfold METAROOT_ENTRIES. rewrite (N.mul_comm _ 8). apply zeros_ok.
  - intros w n _. unfold e. cbn [e_nd]. unfold IMAPNODE_ENTRIES. rewrite (N.mul_comm _ 8). apply zeros_ok.
  - intros b _. cbn [f_cur]. destruct (ge_inline g); [rewrite MR|]; symmetry; apply zeros_bit.
  - intros b _. cbn [f_com]. destruct (ge_inline g); [rewrite MR|]; symmetry; apply zeros_bit.
  - intros b n [].
Qed.
End Refine.

(** * The flat map is the one of the volume-level model (FsImap.v), which all volume theorems use *)
Section Agree.
Variable c : FsState.cfg.
Let flat_of (s : FsState.st) : flat := mkF (FsState.cur s) (FsState.com s).

Lemma find_free_range s e : e <= FsState.BC c -> forall n b, n = N.to_nat (e - b) -> b <= e ->
  FsImap.find_free c n b s = find (free2 (flat_of s)) (range b e).
Proof.
  intros LE. induction n as [|n IH]; intros b H B.
  - now rewrite range_nil by lia.
  - rewrite range_cons by lia. cbn [FsImap.find_free find]. unfold free2 at 1. cbn [f_cur f_com flat_of].
    destruct (negb (FsState.cur s b) && negb (FsState.com s b)); [reflexivity|].
    destruct (N.eqb_spec (b + 1) (FsState.BC c)) as [X|X].
    + assert (n = 0%nat) as -> by lia. rewrite range_nil by lia. reflexivity.
    + apply IH; lia.
Qed.
Lemma find_free_split s : forall m n b, m = N.to_nat (FsState.BC c - b) -> b < FsState.BC c ->
  FsImap.find_free c (m + n) b s = match find (free2 (flat_of s)) (range b (FsState.BC c)) with
                                   | Some x => Some x | None => FsImap.find_free c n (FsState.FA c) s end.
Proof.
  induction m as [|m IH]; intros n b H B; [lia|].
  rewrite range_cons by lia. cbn [FsImap.find_free find Nat.add]. unfold free2 at 1. cbn [f_cur f_com flat_of].
  destruct (negb (FsState.cur s b) && negb (FsState.com s b)); [reflexivity|].
  destruct (N.eqb_spec (b + 1) (FsState.BC c)) as [X|X].
  - assert (m = 0%nat) as -> by lia. rewrite range_nil by lia. reflexivity.
  - apply IH; lia.
Qed.

Theorem C08_volume_find : forall s b, FsState.FA c <= b < FsState.BC c ->
  FsImap.find_free c (N.to_nat (FsState.NALLOC c)) b s = find (free2 (flat_of s)) (order (FsState.FA c) (FsState.BC c) b).
Proof.
  intros s b B. unfold order. rewrite find_app.
  replace (N.to_nat (FsState.NALLOC c)) with (N.to_nat (FsState.BC c - b) + N.to_nat (b - FsState.FA c))%nat
    by (unfold FsState.NALLOC; lia).
  rewrite find_free_split by lia. now rewrite (find_free_range s b) by lia.
Qed.
Theorem C08_volume_set : forall s b al, FsState.ITAB c <= b < FsState.BC c ->
  let (r, s') := FsImap.RedImapIBlockSet b al s in
  flat_step (FsState.ITAB c) (FsState.FA c) (FsState.BC c) (flat_of s) (OSet b al) = (RUnit r, flat_of s').
Proof.
  intros s b al B. unfold FsImap.RedImapIBlockSet, flat_step.
  assert (X : in_map (FsState.ITAB c) (FsState.BC c) b = true).
  { unfold in_map. apply andb_true_iff. rewrite N.leb_le, N.ltb_lt. exact B. }
  rewrite X. cbn [flat_of f_cur f_com]. destruct (Bool.eqb (FsState.cur s b) al); reflexivity.
Qed.
End Agree.

(** * Concrete cases *)
(** A volume of 10000 blocks of 512 bytes with 10 inodes has 3 imap nodes of 3968 entries. *)
Definition kE := mkVC 512 true true true 512 10000 0 10.
Definition gE := match RedVolInitGeometry kE (mkBI 10000 512) with Some (Ok g) => g | _ => mkGeom 0 0 true 0 0 0 0 0 end.
Definition opsE : list iop :=
  [OFind 9000; OSet 9000 true; OSet 9000 true; OFind 9000; OCommit; OSet 40 true; OGet true 40; OGet false 40;
   OSet 9000 false; OGet true 9000; OGet false 9000; OFind 9000; ORollback (fun _ => [1; 2; 3]); OGet true 40; OGet true 9000; OGet true 5].
Example C08_witness : vconf_typed kE /\ RedVolInitGeometry kE (mkBI 10000 512) = Some (Ok gE)
  /\ ge_bc gE + IMAPNODE_ENTRIES kE < 4294967296 + 2 /\ ge_itab gE + 2 * k_icount kE < 4294967296
  /\ ge_nodes gE <= METAROOT_ENTRIES kE /\ ge_inline gE = false /\ ge_nodes gE = 3
  /\ Rel kE gE (blank kE false) (mkF (fun _ => false) (fun _ => false))
  /\ legal (ge_itab gE) (ge_fa gE) (ge_bc gE) (mkF (fun _ => false) (fun _ => false)) opsE
  /\ fst (imap_run kE gE 10000 (blank kE false) opsE) =
     [RBlock (Ok 9000); RUnit (Ok tt); RUnit (Err EFUBAR); RBlock (Ok 9001); RNone; RUnit (Ok tt); RBit (Ok true); RBit (Ok false);
      RUnit (Ok tt); RBit (Ok false); RBit (Ok true); RBlock (Ok 9001); RNone; RBit (Ok false); RBit (Ok true); RBit (Err EINVAL)].
Proof.
  split; [split; try (vm_compute; intros; discriminate); exists 9; vm_compute; repeat split; intros; discriminate|].
  split; [reflexivity|]. split; [reflexivity|]. split; [reflexivity|].
  split; [vm_compute; intros; discriminate|]. split; [reflexivity|]. split; [reflexivity|].
  split; [apply C08_blank|]. split; [|vm_compute; reflexivity].
  unfold opsE. cbn [legal legal_op flat_step snd in_map].
  repeat match goal with
  | |- True /\ _ => split; [exact I|]
  | |- (exists _, _) /\ _ => split; [exists 9500; vm_compute; repeat split; intros; discriminate|]
  end.
  exact I.
Qed.
(** Searching a map without any free block may not end: the start of the search lies inside a byte
    whose eight blocks are allocated, and the search steps over it (imapinline.c:174-178). *)
Definition kH := mkVC 512 true true true 512 100 0 10.
Definition gH := match RedVolInitGeometry kH (mkBI 100 512) with Some (Ok g) => g | _ => mkGeom 0 0 true 0 0 0 0 0 end.
Definition eH := mkE (repeat 255 480) (repeat 255 480) false (fun _ => []) [].
Definition hang_pos : list N := [37; 38; 39; 40; 41; 42; 43; 51; 59; 67; 75; 83; 91; 99; 23; 24; 25; 26; 27; 35].
(** the next position, as computed by the loop *)
Definition nextH (p : N) : N :=
  let idx := p - ge_itab gH in
  if (N.land idx 7 =? 0) && (nthN (e_mr eH (e_cur eH)) (N.shiftr idx 3) 0 =? UINT8_MAX) then skip gH p else wrap gH (p + 1).
Lemma nextH_ok : forallb (fun p => existsb (N.eqb (nextH p)) hang_pos && negb (nextH p =? 37)
    && negb (negb (RedBitGet (e_mr eH (e_cur eH)) (p - ge_itab gH)) && negb (RedBitGet (e_mr eH (negb (e_cur eH))) (p - ge_itab gH)))) hang_pos = true.
Proof. vm_compute. reflexivity. Qed.
Example C08_full_map_hang_refuted : forall n, RedImapIBlockFindFree gH n 37 eH = None.
Proof.
  assert (H : forall n p, In p hang_pos -> i_loop gH n 37 p eH = None).
  { induction n as [|n IH]; intros p P; [reflexivity|].
    pose proof (proj1 (forallb_forall _ _) nextH_ok p P) as Q. cbv beta in Q.
    apply andb_true_iff in Q as (Q & Q3). apply andb_true_iff in Q as (Q1 & Q2).
    apply existsb_exists in Q1 as (q & IQ & EQ). apply N.eqb_eq in EQ. apply negb_true_iff in Q2, Q3.
    cbn [i_loop]. cbv zeta. rewrite Q3. unfold nextH in EQ, Q2. cbv zeta in EQ, Q2.
    destruct (_ && _); rewrite Q2; apply IH; now rewrite EQ. }
  intros n. unfold RedImapIBlockFindFree.
  replace (negb (ge_inline gH) || (37 <? ge_fa gH) || (ge_bc gH <=? 37)) with false by (vm_compute; reflexivity).
  apply H. cbn. auto.
Qed.
