(** Effect of the operations of FsSpec.v on the names and on the contents of files. *)
From Verif Require Import Base FsDir FsSpec FsSpecP.

Lemma named_fun F p nm i j : WF F -> named F p nm i -> named F p nm j -> i = j.
Proof. intros W (k & A) (l & B). assert (k = l) by (eapply (wf_name F W); eauto). subst. destruct (entry_fun _ _ _ _ _ _ _ A B); auto. Qed.
Lemma named_dir F p nm i : named F p nm i -> isdir F p.
Proof. intros (k & A). eapply entry_dir; eauto. Qed.

Lemma entry_unname G j : (isdir G j -> empty_dir G j) -> forall d l nm x, entry (unname G j) d l nm x <-> entry G d l nm x.
Proof.
  intros H d l nm x. unfold unname. destruct (G j) as [[nl sz b|p sl]|] eqn:E; [| |tauto].
  - unfold entry. split; intros (q & s & A & B).
    + destruct (upd_cases G j (if 1 <? nl then Some (AFile (nl - 1) sz b) else None) d) as [[U _]|[U _]]; rewrite U in A; eauto. destruct (1 <? nl); discriminate.
    + exists q, s. split; auto. destruct (upd_cases G j (if 1 <? nl then Some (AFile (nl - 1) sz b) else None) d) as [[U ->]|[U _]]; rewrite U; auto; congruence.
  - assert (EM : empty_dir G j) by (apply H; exists p, sl; auto). split; intros (q & s & A & B).
    + destruct (upd_cases G j None d) as [[U _]|[U _]]; rewrite U in A; [discriminate|]. exists q, s; auto.
    + destruct (N.eq_dec d j) as [->|N]; [exfalso; eapply empty_noent; eauto; exists q, s; eauto|]. exists q, s. split; auto. rewrite upd_other; auto.
Qed.
Lemma entry_setparent F i p d l nm x : entry (set_parent F i p) d l nm x <-> entry F d l nm x.
Proof.
  unfold set_parent. destruct (F i) as [[nl sz b|q sl]|] eqn:E; try tauto. unfold entry. split; intros (r & s & A & B).
  - destruct (upd_cases F i (Some (ADir p sl)) d) as [[U ->]|[U _]]; rewrite U in A; eauto. injection A as <- <-. eauto.
  - destruct (upd_cases F i (Some (ADir p sl)) d) as [[U ->]|[U _]]; [|exists r, s; rewrite U; auto]. rewrite E in A. injection A as <- <-. exists p, sl. auto.
Qed.

Lemma named_create F p nm dir i F' : WF F -> op_create F p nm dir i F' ->
  forall q x j, named F' q x j <-> named F q x j \/ (q = p /\ x = nm /\ j = i).
Proof.
  intros W O q x j. destruct (op_create_entry F p nm dir i F' W O) as (k & _ & EN & _). unfold named. setoid_rewrite EN. split.
  - intros (l & [H|(A & B & C & D)]); eauto. - intros [(l & H)|(A & B & C)]; eauto. exists k. right. auto.
Qed.
Lemma named_link F p nm i F' : op_link F p nm i F' -> forall q x j, named F' q x j <-> named F q x j \/ (q = p /\ x = nm /\ j = i).
Proof.
  intros (nl & sz & b & k & Fi & _ & P & NN & NE & ->) q x j.
  assert (Pi : p <> i) by (intros ->; destruct P as (? & ? & ?); congruence).
  assert (EN : forall d l nm' y, entry (upd (set_slot F p k (Some (nm, i))) i (Some (AFile (nl + 1) sz b))) d l nm' y <-> entry (set_slot F p k (Some (nm, i))) d l nm' y).
  { intros d l nm' y. unfold entry. destruct (upd_cases (set_slot F p k (Some (nm, i))) i (Some (AFile (nl + 1) sz b)) d) as [[U ->]|[U N]]; rewrite U; [|tauto].
    destruct (set_slot_at F p k (Some (nm, i)) i P) as (_ & SF & _). rewrite (SF _ _ _ Fi). split; intros (? & ? & ? & _); discriminate. }
  unfold named. setoid_rewrite EN. setoid_rewrite entry_set; auto. split.
  - intros (l & [(A & B & C)|(A & B)]); [right|left; eauto]. injection C as <- <-. auto.
  - intros [(l & H)|(A & B & C)]; [|subst; exists k; auto]. exists l. right. split; auto. destruct (N.eq_dec q p); auto. destruct (N.eq_dec l k); auto. subst. edestruct NE; eauto.
Qed.
Lemma unlink_empty F p k nm i : WF F -> entry F p k nm i -> (isdir F i -> empty_dir F i) -> isdir (set_slot F p k None) i -> empty_dir (set_slot F p k None) i.
Proof.
  intros W E EM D. assert (P : isdir F p) by (eapply entry_dir; eauto). assert (DI : isdir F i).
  { destruct D as (q & s & D). destruct (set_slot_inv F p k None i _ P D) as (sl & H). exists q, sl; auto. }
  specialize (EM DI). assert (Np : i <> p) by (intros ->; eapply empty_noent; eauto).
  destruct EM as (q & s & A & Z). exists q, s. destruct (set_slot_at F p k None i P) as (_ & _ & _ & U). rewrite U; auto.
Qed.
Lemma named_unlink F p nm F' : WF F -> op_unlink F p nm F' ->
  (exists i, named F p nm i) /\ forall q x j, named F' q x j <-> named F q x j /\ (q, x) <> (p, nm).
Proof.
  intros W (k & i & E & EM & ->). split; [exists i, k; auto|]. intros q x j. assert (P : isdir F p) by (eapply entry_dir; eauto).
  unfold named. setoid_rewrite (entry_unname _ _ (unlink_empty F p k nm i W E EM)). setoid_rewrite entry_set; auto. split.
  - intros (l & [(A & B & C)|(A & B)]); [discriminate|]. split; eauto. intros X. injection X as -> ->. assert (l = k) by (eapply (wf_name F W); eauto). tauto.
  - intros ((l & H) & N). exists l. right. split; auto. destruct (N.eq_dec q p); auto. destruct (N.eq_dec l k); auto. subst. destruct (entry_fun _ _ _ _ _ _ _ H E). congruence.
Qed.
Lemma rename_mid F sp ks dp kd i dn : isdir F sp -> isdir F dp -> forall d l nm x,
  entry (set_parent (set_slot (set_slot F dp kd (Some (dn, i))) sp ks None) i dp) d l nm x <->
  (d <> sp \/ l <> ks) /\ ((d = dp /\ l = kd /\ nm = dn /\ x = i) \/ (d <> dp \/ l <> kd) /\ entry F d l nm x).
Proof.
  intros S D d l nm x. rewrite entry_setparent. rewrite entry_set.
  2:{ destruct S as (q & s & S). destruct (set_slot_at F dp kd (Some (dn, i)) sp D) as (A & _). destruct (A _ _ S) as (s' & Y). exists q, s'. exact Y. }
  rewrite entry_set by auto. split.
  - intros [(_ & _ & X)|(A & [(B & C & X)|X])]; [discriminate|injection X as <- <-; tauto|tauto].
  - intros (A & [(B & C & -> & ->)|X]); right; tauto.
Qed.
Lemma named_rename F sp sn dp dn F' : WF F -> op_rename F sp sn dp dn F' ->
  exists i, named F sp sn i /\
   ((named F dp dn i /\ F' = F) \/
    ~ named F dp dn i /\
    forall q x y, named F' q x y <-> (q = dp /\ x = dn /\ y = i) \/ ((q, x) <> (dp, dn) /\ (q, x) <> (sp, sn) /\ named F q x y)).
Proof.
  intros W (DP & ks & kd & i & E & H). exists i. split; [exists ks; auto|]. destruct H as [H|(NB & j & Nij & J & ->)]; auto. right.
  assert (S : isdir F sp) by (eapply entry_dir; eauto).
  assert (ND : ~ named F dp dn i). { destruct J as [(-> & J & _)|(J & _)]; [apply J|]. intros X. apply Nij. eapply named_fun; eauto. exists kd; auto. }
  split; auto. assert (NK : dp <> sp \/ kd <> ks).
  { destruct (N.eq_dec dp sp); auto. destruct (N.eq_dec kd ks); auto. subst. exfalso. destruct J as [(_ & _ & J)|(J & _)]; [eapply J; eauto|]. destruct (entry_fun _ _ _ _ _ _ _ E J). congruence. }
  set (G := set_parent (set_slot (set_slot F dp kd (Some (dn, i))) sp ks None) i dp).
  assert (EG : forall d l nm x, entry G d l nm x <-> (d <> sp \/ l <> ks) /\ ((d = dp /\ l = kd /\ nm = dn /\ x = i) \/ (d <> dp \/ l <> kd) /\ entry F d l nm x)) by (apply rename_mid; auto).
  assert (EM : isdir G j -> empty_dir G j).
  { intros D. destruct J as [(-> & _)|(J & J1 & J2)].
    - exfalso. assert (isdir F 0). 2:{ destruct H as (? & ? & ?). rewrite (wf_none F W) in H. discriminate. }
      destruct D as (q & s & D). unfold G in D. unfold set_parent in D.
      assert (X : exists q s, set_slot (set_slot F dp kd (Some (dn, i))) sp ks None 0 = Some (ADir q s)).
      { destruct (set_slot (set_slot F dp kd (Some (dn, i))) sp ks None i) as [[|q' s']|] eqn:Z; eauto. rewrite upd_other in D; eauto. }
      destruct X as (q1 & s1 & X). assert (SD : isdir (set_slot F dp kd (Some (dn, i))) sp).
      { destruct S as (q' & s' & S). destruct (set_slot_at F dp kd (Some (dn, i)) sp DP) as (A & _). destruct (A _ _ S) as (s2 & Y). exists q', s2. exact Y. }
      destruct (set_slot_inv _ _ _ _ _ _ SD X) as (s2 & Y). destruct (set_slot_inv _ _ _ _ _ _ DP Y) as (s3 & Z). exists q1, s3. auto.
    - assert (X : forall k nm x, ~ entry G j k nm x).
      { intros k nm x X. apply EG in X. destruct X as (_ & X). destruct (node_cases F i) as [Z|[Z|Z]].
        - destruct (wf_ent F W _ _ _ _ E). congruence.
        - specialize (J1 Z). destruct X as [(-> & -> & X)|(_ & X)]; eapply empty_noent; eauto.
        - specialize (J2 Z). assert (~ isdir F j) by (intros Y; eapply dir_file; eauto). destruct X as [(-> & X)|(_ & X)]; [tauto|]. apply H. eapply entry_dir; eauto. }
      destruct D as (q & s & D). exists q, s. split; auto. intros k. destruct (s k) as [[nm x]|] eqn:Z; auto. exfalso. apply (X k nm x). exists q, s; auto. }
  intros q x y. unfold named. setoid_rewrite (entry_unname G j EM). setoid_rewrite EG. split.
  - intros (l & A & [B|(B & C)]); [left; tauto|]. right. split; [|split; eauto].
    + intros Z. injection Z as -> ->. destruct J as [(_ & J & _)|(J & _)]; [eapply J; exists l; eauto|]. assert (l = kd) by (eapply (wf_name F W); eauto). tauto.
    + intros Z. injection Z as -> ->. assert (l = ks) by (eapply (wf_name F W); eauto). tauto.
  - intros [(-> & -> & ->)|(A & B & (l & C))].
    + exists kd. tauto.
    + exists l. split.
      * destruct (N.eq_dec q sp); auto. destruct (N.eq_dec l ks); auto. subst. destruct (entry_fun _ _ _ _ _ _ _ C E). congruence.
      * right. split; auto. destruct (N.eq_dec q dp); auto. destruct (N.eq_dec l kd); auto. subst.
        destruct J as [(_ & _ & J)|(J & _)]; [edestruct J; eauto|]. destruct (entry_fun _ _ _ _ _ _ _ C J). congruence.
Qed.
Lemma named_file F i nl sz b nl' sz' b' : F i = Some (AFile nl sz b) -> forall q x j, named (upd F i (Some (AFile nl' sz' b'))) q x j <-> named F q x j.
Proof.
  intros H q x j. unfold named, entry. destruct (upd_cases F i (Some (AFile nl' sz' b')) q) as [[U ->]|[U N]]; rewrite U; [|tauto]. rewrite H. split; intros (? & ? & ? & ? & _); discriminate.
Qed.
Lemma named_write F i start n src F' : op_write F i start n src F' -> forall q x j, named F' q x j <-> named F q x j.
Proof. intros (nl & sz & b & H & ->). eapply named_file; eauto. Qed.
Lemma named_truncate F i size F' : op_truncate F i size F' -> forall q x j, named F' q x j <-> named F q x j.
Proof. intros (nl & sz & b & H & ->). eapply named_file; eauto. Qed.

(** Contents: a file keeps its size and bytes unless it is removed. *)
Definition keeps (F F' : fs) : Prop :=
  forall x nl sz b, F x = Some (AFile nl sz b) -> F' x = None \/ exists nl', F' x = Some (AFile nl' sz b).
Lemma keeps_slot F p k v : isdir F p -> keeps F (set_slot F p k v).
Proof. intros P x nl sz b H. right. exists nl. apply (set_slot_at F p k v x P); auto. Qed.
Lemma keeps_unname F j : keeps F (unname F j).
Proof.
  intros x nl sz b H. destruct (N.eq_dec x j) as [->|N]; [|right; exists nl; rewrite unname_at; auto].
  unfold unname. rewrite H, upd_same. destruct (1 <? nl); eauto.
Qed.
Lemma keeps_setparent F i p : keeps F (set_parent F i p).
Proof.
  intros x nl sz b H. right. exists nl. unfold set_parent. destruct (F i) as [[| ]|] eqn:E; auto. destruct (upd_cases F i (Some (ADir p slots)) x) as [[U ->]|[U _]]; rewrite U; congruence.
Qed.
Lemma keeps_create F p nm dir i F' : op_create F p nm dir i F' -> keeps F F'.
Proof.
  intros (_ & Fi & P & _ & k & _ & ->) x nl sz b H. assert (N : x <> i) by congruence.
  assert (P' : isdir (upd F i (Some (newnode dir p))) p). { destruct P as (q & s & P). exists q, s. rewrite upd_other; auto. congruence. }
  apply (keeps_slot _ p k (Some (nm, i)) P' x nl sz b). rewrite upd_other; auto.
Qed.
Lemma keeps_link F p nm i F' : op_link F p nm i F' -> keeps F F'.
Proof.
  intros (nl & sz & b & k & Fi & _ & P & _ & _ & ->) x nl' sz' b' H. right.
  destruct (upd_cases (set_slot F p k (Some (nm, i))) i (Some (AFile (nl + 1) sz b)) x) as [[U ->]|[U _]]; rewrite U.
  - rewrite Fi in H. injection H as <- <- <-. eauto.
  - exists nl'. apply (set_slot_at F p k (Some (nm, i)) x P); auto.
Qed.
Lemma keeps_trans F G H : keeps F G -> (forall x, F x <> None -> G x = None -> H x = None) -> keeps G H -> keeps F H.
Proof.
  intros A Z B x nl sz b E. destruct (A x nl sz b E) as [E'|[nl' E']]; [left; apply Z; congruence|]. destruct (B _ _ _ _ E') as [?|[? ?]]; eauto.
Qed.
Lemma keeps_unlink F p nm F' : op_unlink F p nm F' -> keeps F F'.
Proof.
  intros (k & i & E & _ & ->). assert (P : isdir F p) by (eapply entry_dir; eauto). intros x nl sz b H.
  apply (keeps_unname _ i x nl sz b). apply (set_slot_at F p k None x P); auto.
Qed.
Lemma keeps_rename F sp sn dp dn F' : op_rename F sp sn dp dn F' -> keeps F F'.
Proof.
  intros (DP & ks & kd & i & E & [[_ ->]|(_ & j & _ & _ & ->)]) x nl sz b H; [eauto|].
  assert (S : isdir F sp) by (eapply entry_dir; eauto).
  assert (SD : isdir (set_slot F dp kd (Some (dn, i))) sp).
  { destruct S as (q' & s' & S). destruct (set_slot_at F dp kd (Some (dn, i)) sp DP) as (A & _). destruct (A _ _ S) as (s2 & Y). exists q', s2. exact Y. }
  assert (H1 : set_slot (set_slot F dp kd (Some (dn, i))) sp ks None x = Some (AFile nl sz b)).
  { apply (set_slot_at _ sp ks None x SD). apply (set_slot_at F dp kd _ x DP). auto. }
  destruct (keeps_setparent _ i dp x nl sz b H1) as [H2|[nl' H2]].
  - exfalso. unfold set_parent in H2. destruct (set_slot (set_slot F dp kd (Some (dn, i))) sp ks None i) as [[|]|]; try congruence.
    destruct (upd_cases (set_slot (set_slot F dp kd (Some (dn, i))) sp ks None) i (Some (ADir dp slots)) x) as [[U ->]|[U _]]; congruence.
  - apply (keeps_unname _ j x nl' sz b). auto.
Qed.
