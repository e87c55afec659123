(** The operations of FsSpec keep the namespace well formed. *)
From Verif Require Import Base FsDir FsSpec.
Ltac Zify.zify_post_hook ::= idtac.

Lemma pdec (a b : N * N) : {a = b} + {a <> b}.
Proof. decide equality; apply N.eq_dec. Qed.

(** Removing and adding one element of a list of places. *)
Lemma places_del (L : list (N * N)) x : NoDup L -> In x L ->
  exists L', NoDup L' /\ lenN L = lenN L' + 1 /\ forall y, In y L' <-> In y L /\ y <> x.
Proof.
  intros ND I. destruct (in_split _ _ I) as (l1 & l2 & ->). exists (l1 ++ l2).
  destruct (NoDup_remove _ _ _ ND) as [A B]. split; auto. split.
  - unfold lenN. rewrite !app_length. cbn. lia.
  - intros y. rewrite !in_app_iff. cbn. split.
    + intros [H|H]; split; auto; intros ->; apply B; rewrite in_app_iff; auto.
    + intros [[H|[H|H]] N]; auto. congruence.
Qed.
Lemma places_nil (L : list (N * N)) : lenN L = 0 -> L = [].
Proof. destruct L; auto. unfold lenN. cbn [length]. lia. Qed.

Lemma upd_cases {A} (f : N -> A) k v x : upd f k v x = v /\ x = k \/ upd f k v x = f x /\ x <> k.
Proof. unfold upd. destruct (N.eqb_spec x k); auto. Qed.

(** What a slot update does to entries. *)
Lemma entry_set F p k v d l nm i : isdir F p ->
  entry (set_slot F p k v) d l nm i <-> (d = p /\ l = k /\ v = Some (nm, i)) \/ ((d <> p \/ l <> k) /\ entry F d l nm i).
Proof.
  intros (q & sl & E). unfold set_slot. rewrite E. unfold entry. split.
  - intros (q' & sl' & H & H'). destruct (upd_cases F p (Some (ADir q (upd sl k v))) d) as [[U X]|[U X]]; rewrite U in H.
    + injection H as <- <-. subst d. destruct (upd_cases sl k v l) as [[W Y]|[W Y]]; rewrite W in H'.
      * left; auto.
      * right. split; auto. eauto.
    + right. split; auto. eauto.
  - intros [(-> & -> & ->)|[N (q' & sl' & H & H')]].
    + exists q, (upd sl k (Some (nm, i))). rewrite !upd_same. auto.
    + destruct (N.eq_dec d p) as [->|ND].
      * rewrite E in H. injection H as <- <-. exists q, (upd sl k v). rewrite upd_same. split; auto.
        rewrite upd_other; auto. destruct N; congruence.
      * exists q', sl'. rewrite upd_other; auto.
Qed.
Lemma set_slot_at F p k v x : isdir F p ->
  (forall q sl, F x = Some (ADir q sl) -> exists sl', set_slot F p k v x = Some (ADir q sl')) /\
  (forall nl sz b, F x = Some (AFile nl sz b) -> set_slot F p k v x = Some (AFile nl sz b)) /\
  (F x = None -> set_slot F p k v x = None) /\ (x <> p -> set_slot F p k v x = F x).
Proof.
  intros (q & sl & E). unfold set_slot. rewrite E.
  destruct (upd_cases F p (Some (ADir q (upd sl k v))) x) as [[U X]|[U X]]; rewrite U; subst; repeat split; intros; eauto; try congruence.
  rewrite E in H. injection H as <- <-. eauto.
Qed.
Lemma set_slot_inv F p k v x y : isdir F p -> set_slot F p k v x = Some y ->
  match y with AFile nl sz b => F x = Some (AFile nl sz b) | ADir q _ => exists sl, F x = Some (ADir q sl) end.
Proof.
  intros P H. destruct (set_slot_at F p k v x P) as (A & B & C & _).
  destruct (F x) as [[nl sz b|q sl]|] eqn:E.
  - rewrite (B _ _ _ eq_refl) in H. injection H as <-. auto.
  - destruct (A _ _ eq_refl) as [sl' E']. rewrite E' in H. injection H as <-. eauto.
  - rewrite C in H; congruence.
Qed.
Lemma entry_not0 F d k nm i : WF F -> entry F d k nm i -> i <> 0.
Proof. intros W E ->. destruct (wf_ent F W _ _ _ _ E) as [A _]. apply A, wf_none; auto. Qed.
Lemma entry_dir F d k nm i : entry F d k nm i -> isdir F d.
Proof. intros (p & sl & A & _). exists p, sl; auto. Qed.
Lemma entry_fun F d k nm i nm' i' : entry F d k nm i -> entry F d k nm' i' -> nm = nm' /\ i = i'.
Proof. intros (p & sl & A & B) (p' & sl' & A' & B'). rewrite A in A'. injection A' as <- <-. rewrite B in B'. injection B' as <- <-. auto. Qed.
Lemma dir_file F i : isdir F i -> isfile F i -> False.
Proof. intros (p & sl & A) (nl & sz & b & B). congruence. Qed.
Lemma node_cases F i : F i = None \/ isdir F i \/ isfile F i.
Proof. destruct (F i) as [[nl sz b|p sl]|] eqn:E; auto; right; [right; exists nl, sz, b|left; exists p, sl]; auto. Qed.
(** A directory's parent is a directory. *)
Lemma parent_dir F i p sl : WF F -> F i = Some (ADir p sl) -> i <> ROOT -> isdir F p.
Proof. intros W H N. destruct (wf_dir F W _ _ _ H N) as (k & nm & E & _). eapply entry_dir; eauto. Qed.
(** The children of an empty directory: none. *)
Lemma empty_nokid F e i p sl : WF F -> empty_dir F e -> F i = Some (ADir p sl) -> i <> ROOT -> p <> e.
Proof.
  intros W (q & se & E & Z) H N ->. destruct (wf_dir F W _ _ _ H N) as (k & nm & (q' & s' & A & B) & _).
  rewrite E in A. injection A as <- <-. rewrite Z in B. discriminate.
Qed.
Lemma empty_noent F e k nm i : empty_dir F e -> ~ entry F e k nm i.
Proof. intros (p & sl & E & Z) (q & s' & A & B). rewrite E in A. injection A as <- <-. rewrite Z in B. discriminate. Qed.

Definition par (F : fs) (i : N) : option N := match F i with Some (ADir p _) => Some p | _ => None end.
Lemma par_spec F i p : par F i = Some p <-> exists sl, F i = Some (ADir p sl).
Proof. unfold par. destruct (F i) as [[nl sz b|q sl]|]; split; intros H; try discriminate; try (destruct H; discriminate).
  - injection H as ->. eauto. - destruct H as [sl' H]. congruence. Qed.
Lemma isdir_par F i : isdir F i <-> exists p, par F i = Some p.
Proof. split. - intros (p & sl & E). exists p. apply par_spec. eauto. - intros [p H]. apply par_spec in H. destruct H as [sl H]. exists p, sl; auto. Qed.
Lemma Reach_par F i p : par F i = Some p -> Reach F p -> Reach F i.
Proof. intros H R. apply par_spec in H. destruct H as [sl H]. eapply R_step; eauto. Qed.
Lemma Reach_ind' F (P : N -> Prop) : P ROOT -> (forall i p, par F i = Some p -> Reach F p -> P p -> P i) -> forall i, Reach F i -> P i.
Proof. intros A B i H. induction H; auto. apply (B i p); auto. apply par_spec; eauto. Qed.
Lemma Below_par F a i p : par F i = Some p -> Below F a p -> Below F a i.
Proof. intros H R. apply par_spec in H. destruct H as [sl H]. eapply B_step; eauto. Qed.
(** Reachability where the parents of all reachable directories are unchanged. *)
Lemma Reach_mono F F' : (forall i p, par F i = Some p -> par F' i = Some p) -> forall i, Reach F i -> Reach F' i.
Proof. intros H. apply Reach_ind'; [constructor|]. intros i p E _ R. eapply Reach_par; eauto. Qed.

(** * Creation *)
Lemma op_create_entry F p nm dir i F' : WF F -> op_create F p nm dir i F' ->
  exists k, (forall nm' j, ~ entry F p k nm' j) /\
  (forall d l nm' j, entry F' d l nm' j <-> entry F d l nm' j \/ (d = p /\ l = k /\ nm' = nm /\ j = i)) /\
  (forall x nl sz b, F' x = Some (AFile nl sz b) <-> F x = Some (AFile nl sz b) \/ (x = i /\ newnode dir p = AFile nl sz b)) /\
  (forall x q, par F' x = Some q <-> par F x = Some q \/ (x = i /\ dir = true /\ q = p)) /\
  (F' p <> None) /\ (F' i <> None) /\ (forall x, F x <> None -> F' x <> None) /\ F' 0 = None.
Proof.
  intros W (I0 & Fi & P & NN & k & NE & ->). exists k. split; auto.
  destruct P as (q0 & sl0 & Ep).
  assert (Hpi : p <> i) by congruence.
  set (G := upd F i (Some (newnode dir p))).
  assert (PG : isdir G p) by (exists q0, sl0; unfold G; rewrite upd_other; auto).
  assert (Gi : G i = Some (newnode dir p)) by (unfold G; apply upd_same).
  assert (Go : forall x, x <> i -> G x = F x) by (intros; unfold G; apply upd_other; auto).
  assert (EG : forall d l nm' j, entry G d l nm' j <-> entry F d l nm' j).
  { intros d l nm' j. unfold entry. destruct (N.eq_dec d i) as [->|N].
    - rewrite Gi, Fi. split; intros (q & sl & A & B); try discriminate.
      unfold newnode in A. destruct dir; try discriminate. injection A as <- <-. discriminate.
    - rewrite (Go d N). tauto. }
  split; [|split; [|split; [|split; [|split; [|split]]]]].
  - intros d l nm' j. rewrite (entry_set G p k (Some (nm, i)) d l nm' j PG), EG. split.
    + intros [(-> & -> & E)|[_ H]]; auto. injection E as <- <-. auto.
    + intros [H|(-> & -> & -> & ->)]; auto. right. split; auto.
      destruct (N.eq_dec d p) as [->|]; auto. right. intros ->. exact (NE _ _ H).
  - intros x nl sz b. destruct (set_slot_at G p k (Some (nm, i)) x PG) as (A & B & C & D). split.
    + intros H. pose proof (set_slot_inv _ _ _ _ _ _ PG H) as E. cbn in E.
      destruct (N.eq_dec x i) as [->|N]; [right|left; rewrite <- (Go x N); auto]. rewrite Gi in E. injection E as E. auto.
    + intros [H|[-> H]]; apply B; [rewrite Go; auto; congruence|]. rewrite Gi, H. auto.
  - intros x q. rewrite !par_spec. destruct (set_slot_at G p k (Some (nm, i)) x PG) as (A & B & C & D). split.
    + intros [sl H]. pose proof (set_slot_inv _ _ _ _ _ _ PG H) as E. cbn in E. destruct E as [sl' E].
      destruct (N.eq_dec x i) as [->|N]; [right|left; exists sl'; rewrite <- (Go x N); auto]. rewrite Gi in E. injection E as E.
      unfold newnode in E. destruct dir; try discriminate. injection E as <- _. auto.
    + intros [[sl H]|(-> & -> & ->)].
      * destruct (A q sl) as [sl' E]; [rewrite Go; auto; congruence|]. eauto.
      * destruct (A p (fun _ => None)) as [sl' E]; [rewrite Gi; auto|]. eauto.
  - destruct PG as (q & sl & E). unfold set_slot. rewrite E, upd_same. discriminate.
  - destruct (set_slot_at G p k (Some (nm, i)) i PG) as (_ & _ & _ & D). rewrite (D (not_eq_sym Hpi)), Gi. discriminate.
  - intros x H. unfold set_slot. destruct PG as (q & sl & E). rewrite E. unfold upd at 1. destruct (x =? p); try discriminate.
    unfold G, upd. destruct (x =? i); auto; discriminate.
  - destruct (set_slot_at G p k (Some (nm, i)) 0 PG) as (_ & _ & C & _). apply C. rewrite Go; auto. apply wf_none; auto.
Qed.

Theorem op_create_WF F p nm dir i F' : WF F -> op_create F p nm dir i F' -> WF F'.
Proof.
  intros W O. destruct (op_create_entry F p nm dir i F' W O) as (k & NE & EN & FI & PA & Np & Ni & NM & Z).
  destruct O as (I0 & Fi & P & NN & _).
  assert (NEi : forall d l nm', ~ entry F d l nm' i) by (intros d l nm' H; destruct (wf_ent F W _ _ _ _ H); congruence).
  assert (RI : i <> ROOT) by (intros ->; destruct (wf_root F W); congruence).
  constructor.
  - assert (X : exists sl, F' ROOT = Some (ADir 0 sl)).
    { apply par_spec, PA. left. apply par_spec. apply W. } exact X.
  - exact Z.
  - intros d l nm' j H. apply EN in H. destruct H as [H|(-> & -> & -> & ->)]; auto.
    destruct (wf_ent F W _ _ _ _ H). auto.
  - intros d l l' nm' j j' H H'. apply EN in H. apply EN in H'.
    destruct H as [H|(-> & -> & -> & ->)], H' as [H'|(A' & B' & C' & D')]; subst; auto.
    + eapply (wf_name F W); eauto.
    + destruct (NN j). exists l. auto.
    + destruct (NN j'). exists l'. auto.
  - intros j q sl H N. assert (H' : par F' j = Some q) by (apply par_spec; eauto). apply PA in H'. destruct H' as [H'|(-> & -> & ->)].
    + apply par_spec in H'. destruct H' as [sl' H']. destruct (wf_dir F W _ _ _ H' N) as (k' & nm' & A & B).
      exists k', nm'. split; [apply EN; auto|]. intros d l nm'' X. apply EN in X. destruct X as [X|(-> & -> & -> & ->)]; eauto. congruence.
    + exists k, nm. split; [apply EN; auto|]. intros d l nm'' X. apply EN in X. destruct X as [X|(-> & -> & -> & _)]; auto. destruct (NEi _ _ _ X).
  - intros j nl sz b H. apply FI in H. destruct H as [H|[-> H]].
    + destruct (wf_file F W _ _ _ _ H) as (A & L & B & C & D). split; auto. exists L. split; auto. split; auto.
      intros d l. rewrite D. split; intros [nm' X]; exists nm'; [apply EN; auto|]. apply EN in X. destruct X as [X|(-> & -> & -> & ->)]; auto. congruence.
    + unfold newnode in H. destruct dir; try discriminate. injection H as <- <- <-. split; [lia|].
      exists [(p, k)]. split; [constructor; auto; constructor|]. split; auto. intros d l. cbn. split.
      * intros [E|[]]. injection E as <- <-. exists nm. apply EN. auto.
      * intros [nm' X]. apply EN in X. destruct X as [X|(-> & -> & -> & _)]; auto. destruct (NEi _ _ _ X).
  - intros j Hj. assert (M : forall x, Reach F x -> Reach F' x) by (apply Reach_mono; intros; apply PA; auto).
    apply isdir_par in Hj. destruct Hj as [q Hj]. apply PA in Hj. destruct Hj as [Hj|(-> & -> & ->)].
    + apply M, W, isdir_par. eauto.
    + eapply Reach_par; [apply PA; right; auto|]. apply M, W; auto.
Qed.

(** * Linking *)
Theorem op_link_WF F p nm i F' : WF F -> op_link F p nm i F' -> WF F'.
Proof.
  intros W (nl & sz & b & k & Fi & NL & P & NN & NE & ->).
  set (G := set_slot F p k (Some (nm, i))).
  assert (EG := fun d l nm' j => entry_set F p k (Some (nm, i)) d l nm' j P). fold G in EG.
  assert (Hip : i <> p) by (intros ->; destruct P as (q & sl & E); congruence).
  assert (Gi : G i = F i) by (unfold G; destruct (set_slot_at F p k (Some (nm, i)) i P) as (_ & _ & _ & D); auto).
  set (H0 := upd G i (Some (AFile (nl + 1) sz b))).
  assert (EN : forall d l nm' j, entry H0 d l nm' j <-> entry F d l nm' j \/ (d = p /\ l = k /\ nm' = nm /\ j = i)).
  { intros d l nm' j. transitivity (entry G d l nm' j).
    - unfold entry, H0. destruct (upd_cases G i (Some (AFile (nl + 1) sz b)) d) as [[U ->]|[U _]]; rewrite U; [|tauto].
      rewrite Gi, Fi. split; intros (? & ? & ? & ?); discriminate.
    - rewrite EG. split.
      + intros [(-> & -> & E)|[_ H]]; auto. injection E as <- <-. auto.
      + intros [H|(-> & -> & -> & ->)]; auto. right. split; auto.
        destruct (N.eq_dec d p) as [->|]; auto. right. intros ->. exact (NE _ _ H). }
  assert (PA : forall x q, par H0 x = Some q <-> par F x = Some q).
  { intros x q. rewrite !par_spec. unfold H0. destruct (upd_cases G i (Some (AFile (nl + 1) sz b)) x) as [[U ->]|[U N]]; rewrite U.
    - rewrite Fi. split; intros [? X]; discriminate.
    - unfold G. split.
      + intros [sl X]. apply (set_slot_inv _ _ _ _ _ _ P X).
      + intros [sl X]. destruct (set_slot_at F p k (Some (nm, i)) x P) as (A & _). eauto. }
  assert (FI : forall x nl' sz' b', H0 x = Some (AFile nl' sz' b') -> x <> i -> F x = Some (AFile nl' sz' b')).
  { intros x nl' sz' b' H N. unfold H0 in H. rewrite upd_other in H; auto. apply (set_slot_inv _ _ _ _ _ _ P H). }
  assert (NM : forall x, F x <> None -> H0 x <> None).
  { intros x H. unfold H0, upd. destruct (x =? i); try discriminate. unfold G, set_slot. destruct P as (q & sl & ->).
    unfold upd. destruct (x =? p); auto; discriminate. }
  assert (Hi : H0 i = Some (AFile (nl + 1) sz b)) by (unfold H0; apply upd_same).
  assert (Ri : i <> ROOT) by (intros ->; destruct (wf_root F W); congruence).
  assert (I0 : i <> 0) by (intros ->; rewrite (wf_none F W) in Fi; discriminate).
  constructor.
  - assert (X : exists sl, H0 ROOT = Some (ADir 0 sl)) by (apply par_spec, PA, par_spec, W). exact X.
  - unfold H0. rewrite upd_other; auto. unfold G. destruct (set_slot_at F p k (Some (nm, i)) 0 P) as (_ & _ & C & _). apply C, W.
  - intros d l nm' j H. apply EN in H. destruct H as [H|(-> & -> & -> & ->)].
    + destruct (wf_ent F W _ _ _ _ H). auto.
    + split; auto. congruence.
  - intros d l l' nm' j j' H H'. apply EN in H. apply EN in H'.
    destruct H as [H|(-> & -> & -> & ->)], H' as [H'|(A' & B' & C' & D')]; subst; auto.
    + eapply (wf_name F W); eauto.
    + destruct (NN j). exists l. auto.
    + destruct (NN j'). exists l'. auto.
  - intros j q sl H N. assert (H' : par H0 j = Some q) by (apply par_spec; eauto). apply PA, par_spec in H'. destruct H' as [sl' H'].
    destruct (wf_dir F W _ _ _ H' N) as (k' & nm' & A & B).
    exists k', nm'. split; [apply EN; auto|]. intros d l nm'' X. apply EN in X. destruct X as [X|(-> & -> & -> & ->)]; eauto. congruence.
  - intros j nl' sz' b' H. destruct (N.eq_dec j i) as [->|N].
    + rewrite Hi in H. injection H as <- <- <-. destruct (wf_file F W _ _ _ _ Fi) as (A & L & B & C & D). split; [lia|].
      exists ((p, k) :: L). split; [constructor; auto|split].
      * rewrite D. intros [nm' X]. exact (NE _ _ X).
      * unfold lenN in *. cbn [length]. lia.
      * intros d l. cbn. rewrite D. split.
        -- intros [E|[nm' X]]; [injection E as <- <-; exists nm|exists nm']; apply EN; auto.
        -- intros [nm' X]. apply EN in X. destruct X as [X|(-> & -> & _)]; eauto.
    + apply FI in H; auto. destruct (wf_file F W _ _ _ _ H) as (A & L & B & C & D). split; auto. exists L. split; auto. split; auto.
      intros d l. rewrite D. split; intros [nm' X]; exists nm'; [apply EN; auto|]. apply EN in X. destruct X as [X|(-> & -> & -> & ->)]; auto. congruence.
  - intros j Hj. apply (Reach_mono F H0); [intros; apply PA; auto|]. apply W, isdir_par. apply isdir_par in Hj. destruct Hj as [q Hj]. exists q. apply PA; auto.
Qed.

(** * Removing one name of [j] (used by unlink and rename): [G] is what remains when the name is gone. *)
Lemma unname_at G j x : x <> j -> unname G j x = G x.
Proof. intros N. unfold unname. destruct (G j) as [[nl sz b|p sl]|]; auto; apply upd_other; auto. Qed.
Lemma unname_none G j : G j = None -> unname G j = G.
Proof. unfold unname. intros ->. auto. Qed.

(** [G] is well formed but for the places of [j]: it has one link too many, or it is an empty directory
    without a name. *)
Record WFm (G : fs) (j : N) : Prop := {
  wm_root : exists sl, G ROOT = Some (ADir 0 sl);
  wm_none : G 0 = None;
  wm_ent : forall d k nm i, entry G d k nm i -> G i <> None /\ i <> ROOT;
  wm_name : forall d k l nm i i', entry G d k nm i -> entry G d l nm i' -> k = l;
  wm_dir : forall i p sl, G i = Some (ADir p sl) -> i <> ROOT -> i <> j ->
     exists k nm, entry G p k nm i /\ forall d' k' nm', entry G d' k' nm' i -> d' = p /\ k' = k;
  wm_file : forall i nl sz by_, G i = Some (AFile nl sz by_) -> 1 <= nl <= 65535 /\
     exists L, NoDup L /\ lenN L + (if i =? j then 1 else 0) = nl /\ forall d k, In (d, k) L <-> exists nm, entry G d k nm i;
  wm_reach : forall i, i <> j -> isdir G i -> Reach G i;
  wm_j : j <> ROOT;
  wm_empty : isdir G j -> empty_dir G j /\ (forall d k nm, ~ entry G d k nm j) /\ (forall i q, i <> ROOT -> par G i = Some q -> q <> j) }.

Lemma WFm_WF G j : WFm G j -> WF (unname G j).
Proof.
  intros W. destruct (G j) as [n|] eqn:Gj.
  2:{ rewrite unname_none by auto. constructor; try apply W; auto.
      - intros i p sl H N. apply (wm_dir G j W i p sl); auto. congruence.
      - intros i nl sz b H. destruct (wm_file G j W _ _ _ _ H) as (A & L & B & C & D). split; auto. exists L. split; auto. split; auto.
        destruct (N.eqb_spec i j); [congruence|]. lia.
      - intros i H. apply (wm_reach G j W); auto. intros ->. destruct H as (? & ? & ?). congruence. }
  set (H0 := unname G j).
  assert (EN : forall d l nm i, entry H0 d l nm i <-> entry G d l nm i).
  { intros d l nm i. unfold entry. destruct (N.eq_dec d j) as [->|N]; [|unfold H0; rewrite unname_at; auto; tauto].
    unfold H0, unname. rewrite Gj. destruct n as [nl sz b|p sl]; rewrite upd_same.
    - split; intros (? & ? & X & _); try discriminate. destruct (1 <? nl); discriminate.
    - split; intros (p' & sl' & X & Y); [discriminate|]. destruct (wm_empty G j W) as (E & _); [exists p, sl; auto|].
      destruct (empty_noent G j l nm i E). exists p', sl'. rewrite Gj. auto. }
  assert (Oth : forall x, x <> j -> H0 x = G x) by (intros; unfold H0; apply unname_at; auto).
  assert (PA : forall x q, par H0 x = Some q <-> par G x = Some q /\ x <> j).
  { intros x q. destruct (N.eq_dec x j) as [->|N]; [|unfold par; rewrite Oth; auto; tauto].
    split; [|intros []; congruence]. unfold par, H0, unname. rewrite Gj. destruct n as [nl sz b|p sl]; rewrite upd_same; [destruct (1 <? nl)|]; discriminate. }
  (* an entry for j remains only if j remains *)
  assert (KE : forall d k nm, entry G d k nm j -> H0 j <> None).
  { intros d k nm E. unfold H0, unname. rewrite Gj. destruct n as [nl sz b|p sl]; rewrite upd_same.
    - destruct (N.ltb_spec 1 nl); [discriminate|]. exfalso. destruct (wm_file G j W _ _ _ _ Gj) as (A & L & B & C & D). rewrite N.eqb_refl in C.
      assert (Z : L = []) by (apply places_nil; lia). assert (In (d, k) L) by (apply D; eauto). subst L. auto.
    - destruct (wm_empty G j W) as (_ & E' & _); [exists p, sl; auto|]. destruct (E' _ _ _ E). }
  constructor.
  - rewrite Oth; [apply W|]. apply not_eq_sym, W.
  - destruct (N.eq_dec 0 j) as [<-|N]; [|rewrite Oth; auto; apply W]. rewrite (wm_none G _ W) in Gj. discriminate.
  - intros d k nm i H. apply EN in H. destruct (wm_ent G j W _ _ _ _ H). split; auto. destruct (N.eq_dec i j) as [->|N]; [eauto|]. rewrite Oth; auto.
  - intros d k l nm i i' H H'. apply EN in H. apply EN in H'. eapply (wm_name G j W); eauto.
  - intros i p sl H N. assert (X : par H0 i = Some p) by (apply par_spec; eauto). apply PA in X. destruct X as [X N'].
    apply par_spec in X. destruct X as [sl' X]. destruct (wm_dir G j W _ _ _ X N N') as (k & nm & A & B). exists k, nm. split; [apply EN; auto|].
    intros d' k' nm' Y. apply EN in Y. eauto.
  - intros i nl sz b H. destruct (N.eq_dec i j) as [->|N].
    + unfold H0, unname in H. rewrite Gj in H. destruct n as [nl' sz' b'|]; rewrite upd_same in H; [|discriminate].
      destruct (N.ltb_spec 1 nl'); [|discriminate]. injection H as <- <- <-.
      destruct (wm_file G j W _ _ _ _ Gj) as (A & L & B & C & D). rewrite N.eqb_refl in C. split; [lia|].
      exists L. split; auto. split; [lia|]. intros d k. rewrite D. split; intros [nm X]; exists nm; apply EN; auto.
    + rewrite Oth in H; auto. destruct (wm_file G j W _ _ _ _ H) as (A & L & B & C & D). destruct (N.eqb_spec i j); [congruence|]. split; auto.
      exists L. split; auto. split; [lia|]. intros d k. rewrite D. split; intros [nm X]; exists nm; apply EN; auto.
  - intros i H. apply isdir_par in H. destruct H as [q H]. apply PA in H. destruct H as [H N].
    assert (R : Reach G i) by (apply (wm_reach G j W); auto; apply isdir_par; eauto).
    revert N. clear q H. revert i R. apply (Reach_ind' G (fun i => i <> j -> Reach H0 i)); [constructor|].
    intros i p E R IH N. destruct (N.eq_dec i ROOT) as [->|NR]; [constructor|].
    assert (p <> j).
    { intros ->. apply par_spec in E. destruct E as [sl E]. destruct (wm_dir G j W _ _ _ E NR N) as (k & nm & A & B).
      assert (Dj : isdir G j) by (eapply entry_dir; eauto). destruct (wm_empty G j W Dj) as (X & Y & Z). exact (empty_noent _ _ _ _ _ X A). }
    eapply Reach_par; [apply PA; eauto|]. auto.
Qed.

Theorem op_unlink_WF F p nm F' : WF F -> op_unlink F p nm F' -> WF F'.
Proof.
  intros W (k & i & E & EM & ->). apply WFm_WF.
  assert (P : isdir F p) by (eapply entry_dir; eauto).
  set (G := set_slot F p k None).
  assert (EN : forall d l nm' j, entry G d l nm' j <-> (d <> p \/ l <> k) /\ entry F d l nm' j).
  { intros. unfold G. rewrite entry_set by auto. split; [intros [(_ & _ & X)|X]; [discriminate|auto]|auto]. }
  assert (PA : forall x q, par G x = Some q <-> par F x = Some q).
  { intros x q. rewrite !par_spec. unfold G. split.
    - intros [sl X]. apply (set_slot_inv _ _ _ _ _ _ P X).
    - intros [sl X]. destruct (set_slot_at F p k None x P) as (A & _). eauto. }
  assert (FI : forall x nl sz b, G x = Some (AFile nl sz b) -> F x = Some (AFile nl sz b)).
  { intros x nl sz b H. apply (set_slot_inv _ _ _ _ _ _ P H). }
  assert (NM : forall x, F x <> None -> G x <> None).
  { intros x H. unfold G, set_slot. destruct P as (q & sl & ->). unfold upd. destruct (x =? p); auto; discriminate. }
  destruct (wf_ent F W _ _ _ _ E) as [Ei Ri].
  constructor; auto.
  - assert (X : exists sl, G ROOT = Some (ADir 0 sl)) by (apply par_spec, PA, par_spec, W). exact X.
  - unfold G. destruct (set_slot_at F p k None 0 P) as (_ & _ & C & _). apply C, W.
  - intros d l nm' j H. apply EN in H. destruct H as [_ H]. destruct (wf_ent F W _ _ _ _ H). auto.
  - intros d l l' nm' j j' H H'. apply EN in H. apply EN in H'. eapply (wf_name F W); [apply H|apply H'].
  - intros j q sl H N Nj. assert (H' : par G j = Some q) by (apply par_spec; eauto). apply PA, par_spec in H'. destruct H' as [sl' H'].
    destruct (wf_dir F W _ _ _ H' N) as (k' & nm' & A & B). exists k', nm'. split.
    + apply EN. split; auto. destruct (N.eq_dec q p) as [->|]; auto. right. intros ->. apply Nj. apply (entry_fun _ _ _ _ _ _ _ A E).
    + intros d l nm'' X. apply EN in X. apply (B _ _ _ (proj2 X)).
  - intros j nl sz b H. apply FI in H. destruct (wf_file F W _ _ _ _ H) as (A & L & B & C & D). split; auto.
    destruct (N.eqb_spec j i) as [->|N].
    + destruct (places_del L (p, k) B) as (L' & B' & C' & D'); [apply D; eauto|]. exists L'. split; auto. split; [lia|].
      intros d l. rewrite D', D. split.
      * intros [[nm' X] Y]. exists nm'. apply EN. split; auto. destruct (N.eq_dec d p) as [->|]; auto. right. intros ->. auto.
      * intros [nm' X]. apply EN in X. destruct X as [X Y]. split; eauto. intros Z. injection Z as -> ->. destruct X; auto.
    + exists L. split; auto. split; [lia|]. intros d l. rewrite D. split; intros [nm' X]; exists nm'.
      * apply EN. split; auto. destruct (N.eq_dec d p) as [->|]; auto. right. intros ->. apply N. apply (entry_fun _ _ _ _ _ _ _ X E).
      * apply EN in X. apply X.
  - intros j N Hj. apply (Reach_mono F G); [intros; apply PA; auto|]. apply W, isdir_par. apply isdir_par in Hj. destruct Hj as [q Hj]. exists q. apply PA; auto.
  - intros Di. assert (Di' : isdir F i) by (apply isdir_par; apply isdir_par in Di; destruct Di as [q X]; exists q; apply PA; auto).
    specialize (EM Di'). split; [|split].
    + destruct EM as (q & sl & X & Z). assert (Nip : i <> p) by (intros ->; refine (empty_noent F p k nm p _ E); exists q, sl; auto).
      exists q, sl. split; auto. unfold G. destruct (set_slot_at F p k None i P) as (_ & _ & _ & D). rewrite D; auto.
    + intros d l nm' X. apply EN in X. destruct X as [X Y]. destruct Di' as (q & sl & Di'). destruct (wf_dir F W _ _ _ Di' Ri) as (k' & nm'' & A & B).
      destruct (B _ _ _ E) as [-> ->]. destruct (B _ _ _ Y) as [-> ->]. destruct X; auto.
    + intros x q NR X. apply PA, par_spec in X. destruct X as [sl X]. eapply empty_nokid; eauto.
Qed.

Theorem op_rename_WF F sp sn dp dn F' : WF F -> op_rename F sp sn dp dn F' -> WF F'.
Proof.
  intros W (DP & ks & kd & i & E & [[_ ->]|(NB & j & Nij & J & ->)]); auto. apply WFm_WF.
  assert (SP : isdir F sp) by (eapply entry_dir; eauto).
  destruct (wf_ent F W _ _ _ _ E) as [Ei Ri].
  assert (Jr : j <> ROOT). { destruct J as [(-> & _)|(H & _)]; [discriminate|]. destruct (wf_ent F W _ _ _ _ H). auto. }
  (* the two slots differ *)
  assert (SL : sp <> dp \/ ks <> kd).
  { destruct (N.eq_dec sp dp) as [->|]; auto. right. intros ->. destruct J as [(_ & _ & H)|(H & _)].
    - exact (H _ _ E). - apply Nij. apply (entry_fun _ _ _ _ _ _ _ E H). }
  set (G1 := set_slot F dp kd (Some (dn, i))).
  assert (SP1 : isdir G1 sp).
  { destruct SP as (q & sl & H). destruct (set_slot_at F dp kd (Some (dn, i)) sp DP) as (A & _). destruct (A _ _ H) as [sl' A']. exists q, sl'; auto. }
  set (G2 := set_slot G1 sp ks None).
  set (G := set_parent G2 i dp).
  (* whatever is at kd in dp is (dn, j) *)
  assert (KD : forall nm x, entry F dp kd nm x -> nm = dn /\ x = j).
  { intros nm x H. destruct J as [(_ & _ & Z)|(Z & _)]; [destruct (Z _ _ H)|]. apply (entry_fun _ _ _ _ _ _ _ H Z). }
  assert (EN2 : forall d l nm x, entry G2 d l nm x <-> (d = dp /\ l = kd /\ nm = dn /\ x = i) \/
     ((d <> dp \/ l <> kd) /\ (d <> sp \/ l <> ks) /\ entry F d l nm x)).
  { intros. unfold G2. rewrite entry_set by auto. unfold G1. rewrite entry_set by auto. split.
    - intros [(_ & _ & X)|(X & [(-> & -> & Y)|[Y Z]])]; [discriminate|injection Y as <- <-; auto|auto].
    - intros [(-> & -> & -> & ->)|(A & B & C)]; right; [|auto]. split; [|auto]. destruct SL; auto. }
  assert (EN : forall d l nm x, entry G d l nm x <-> entry G2 d l nm x).
  { intros. unfold G, set_parent. destruct (G2 i) as [[nl sz b|p sl]|] eqn:X; try tauto. unfold entry.
    destruct (upd_cases G2 i (Some (ADir dp sl)) d) as [[U ->]|[U N]]; rewrite U; [|tauto]. rewrite X. split; intros (p' & s' & A & B); injection A as <- <-; eauto. }
  assert (ENF : forall d l nm x, entry G d l nm x <-> (d = dp /\ l = kd /\ nm = dn /\ x = i) \/
     ((d <> dp \/ l <> kd) /\ (d <> sp \/ l <> ks) /\ entry F d l nm x)).
  { intros. rewrite EN. apply EN2. } clear EN.
  assert (PA2 : forall x q, par G2 x = Some q <-> par F x = Some q).
  { intros x q. rewrite !par_spec. unfold G2. split.
    - intros [sl X]. apply (set_slot_inv _ _ _ _ _ _ SP1) in X. cbn in X. destruct X as [sl' X]. apply (set_slot_inv _ _ _ _ _ _ DP X).
    - intros [sl X]. destruct (set_slot_at F dp kd (Some (dn, i)) x DP) as (A & _). destruct (A _ _ X) as [sl' X'].
      destruct (set_slot_at G1 sp ks None x SP1) as (A' & _). eauto. }
  assert (PAo : forall x q, x <> i -> par G x = Some q <-> par F x = Some q).
  { intros x q N. rewrite <- PA2. unfold G, set_parent, par. destruct (G2 i) as [[nl sz b|p sl]|]; try tauto. rewrite upd_other; auto. tauto. }
  assert (PAi : forall q, par G i = Some q <-> q = dp /\ isdir F i).
  { intros q. rewrite isdir_par. setoid_rewrite <- PA2. unfold G, set_parent, par.
    destruct (G2 i) as [[nl sz b|p sl]|] eqn:X; try rewrite X; try rewrite upd_same; (split; [intros Y; try discriminate|intros [-> [p' Y]]; try discriminate]).
    - injection Y as <-. eauto. - auto. }
  assert (FI2 : forall x nl sz b, G2 x = Some (AFile nl sz b) -> F x = Some (AFile nl sz b)).
  { intros x nl sz b H. unfold G2 in H. apply (set_slot_inv _ _ _ _ _ _ SP1) in H. apply (set_slot_inv _ _ _ _ _ _ DP H). }
  assert (FI : forall x nl sz b, G x = Some (AFile nl sz b) -> F x = Some (AFile nl sz b)).
  { intros x nl sz b H. apply FI2. unfold G, set_parent in H. destruct (G2 i) as [[nl' sz' b'|p sl]|] eqn:X; auto.
    destruct (upd_cases G2 i (Some (ADir dp sl)) x) as [[U ->]|[U N]]; rewrite U in H; auto. discriminate. }
  assert (NM : forall x, F x <> None -> G x <> None).
  { intros x H. assert (G1 x <> None).
    { unfold G1, set_slot. destruct DP as (q & sl & ->). unfold upd. destruct (x =? dp); auto; discriminate. }
    assert (G2 x <> None).
    { unfold G2, set_slot. destruct SP1 as (q & sl & ->). unfold upd. destruct (x =? sp); auto; discriminate. }
    unfold G, set_parent. destruct (G2 i) as [[nl' sz' b'|p sl]|] eqn:X; auto. unfold upd. destruct (x =? i); auto; discriminate. }
  assert (I0 : i <> 0) by (eapply entry_not0; eauto).
  assert (Dj : isdir G j <-> isdir F j).
  { rewrite !isdir_par. split; intros [q X]; exists q; apply PAo; auto. }
  (* j, if it is a directory, is empty, and i is a directory *)
  assert (EJ : isdir F j -> empty_dir F j /\ isdir F i).
  { intros D. destruct J as [(-> & _)|(H & HA & HB)]; [destruct D as (? & ? & D); rewrite (wf_none F W) in D; discriminate|].
    destruct (node_cases F i) as [X|[X|X]]; [congruence|auto|]. destruct (dir_file F j); auto. }
  assert (Njd : isdir F j -> j <> dp /\ j <> sp).
  { intros D. destruct (EJ D) as [X Y]. split; intros ->.
    - destruct J as [(-> & _)|(H & _)]; [|exact (empty_noent _ _ _ _ _ X H)]. destruct D as (? & ? & D); rewrite (wf_none F W) in D; discriminate.
    - exact (empty_noent _ _ _ _ _ X E). }
  assert (PR : par G ROOT = Some 0).
  { apply PAo; auto. apply par_spec, W. }
  constructor; auto.
  - apply par_spec in PR. exact PR.
  - assert (A : forall Q, isdir Q dp \/ True -> Q 0 = None -> True) by auto.
    assert (X1 : G1 0 = None) by (unfold G1; destruct (set_slot_at F dp kd (Some (dn, i)) 0 DP) as (_ & _ & C & _); apply C, W).
    assert (X2 : G2 0 = None) by (unfold G2; destruct (set_slot_at G1 sp ks None 0 SP1) as (_ & _ & C & _); apply C; auto).
    unfold G, set_parent. destruct (G2 i) as [[? ? ?|? ?]|]; auto. rewrite upd_other; auto.
  - intros d l nm x H. apply ENF in H. destruct H as [(-> & -> & -> & ->)|(_ & _ & H)]; auto. destruct (wf_ent F W _ _ _ _ H). auto.
  - intros d k l nm x x' H H'. apply ENF in H. apply ENF in H'.
    assert (U : forall l x, l <> kd -> ~ (entry F dp l dn x)).
    { intros l0 x0 N0 H0. destruct J as [(_ & Z & _)|(Z & _)].
      - apply (Z x0). exists l0; auto. - apply N0. eapply (wf_name F W); eauto. }
    destruct H as [(-> & -> & -> & ->)|(A & B & H)], H' as [(A' & -> & C' & ->)|(A' & B' & H')]; subst; auto.
    + exfalso. apply (U l x'); auto. destruct A'; congruence.
    + exfalso. apply (U k x); auto. destruct A; congruence.
    + eapply (wf_name F W); eauto.
  - intros x p sl H N Nj. assert (H' : par G x = Some p) by (apply par_spec; eauto).
    destruct (N.eq_dec x i) as [->|Ni].
    + apply PAi in H'. destruct H' as [-> D]. exists kd, dn. split; [apply ENF; auto|]. intros d' k' nm' X. apply ENF in X.
      destruct X as [(-> & -> & _)|(A & B & X)]; auto. exfalso.
      destruct D as (q & s' & D). destruct (wf_dir F W _ _ _ D Ri) as (k0 & nm0 & _ & Z). destruct (Z _ _ _ E) as [-> ->]. destruct (Z _ _ _ X) as [-> ->]. destruct B; auto.
    + apply PAo, par_spec in H'; auto. destruct H' as [sl' H']. destruct (wf_dir F W _ _ _ H' N) as (k0 & nm0 & A & Z). exists k0, nm0. split.
      * apply ENF. right. split; [|split; auto].
        -- destruct (N.eq_dec p dp) as [->|]; auto. right. intros ->. destruct (KD _ _ A). congruence.
        -- destruct (N.eq_dec p sp) as [->|]; auto. right. intros ->. destruct (entry_fun _ _ _ _ _ _ _ A E). congruence.
      * intros d' k' nm' X. apply ENF in X. destruct X as [(-> & -> & -> & ->)|(_ & _ & X)]; [congruence|eauto].
  - intros x nl sz b H. apply FI in H. destruct (wf_file F W _ _ _ _ H) as (A & L & B & C & D). split; auto.
    destruct (N.eq_dec x i) as [->|Ni].
    + destruct (N.eqb_spec i j); [congruence|].
      destruct (places_del L (sp, ks) B) as (L' & B' & C' & D'); [apply D; eauto|]. exists ((dp, kd) :: L'). split; [|split].
      * constructor; auto. rewrite D', D. intros [[nm X] _]. destruct (KD _ _ X). congruence.
      * unfold lenN in *. cbn [length]. lia.
      * intros d l. cbn. rewrite D', D. split.
        -- intros [X|[[nm X] Y]]; [injection X as <- <-; exists dn; apply ENF; auto|]. exists nm. apply ENF.
           destruct (pdec (d, l) (dp, kd)) as [Z|Z].
           ++ injection Z as -> ->. left. destruct (KD _ _ X). congruence.
           ++ right. split; [|split; auto]; [destruct (N.eq_dec d dp) as [->|]|destruct (N.eq_dec d sp) as [->|]]; auto; right; intros ->; auto.
        -- intros [nm X]. apply ENF in X. destruct X as [(-> & -> & _)|(P & Q & X)]; auto. right. split; eauto. intros Z. injection Z as -> ->. destruct Q; auto.
    + destruct (N.eqb_spec x j) as [->|Nj].
      * destruct J as [(-> & _)|(J & _)]; [rewrite (wf_none F W) in H; discriminate|].
        destruct (places_del L (dp, kd) B) as (L' & B' & C' & D'); [apply D; eauto|]. exists L'. split; auto. split; [lia|].
        intros d l. rewrite D', D. split.
        -- intros [[nm X] Y]. exists nm. apply ENF. right. split; [|split; auto]; [destruct (N.eq_dec d dp) as [->|]|destruct (N.eq_dec d sp) as [->|]]; auto; right; intros ->; auto.
           destruct (entry_fun _ _ _ _ _ _ _ X E). congruence.
        -- intros [nm X]. apply ENF in X. destruct X as [(-> & -> & -> & ->)|(P & Q & X)]; [congruence|]. split; eauto. intros Z. injection Z as -> ->. destruct P; auto.
      * exists L. split; auto. split; [lia|]. intros d l. rewrite D. split; intros [nm X]; exists nm.
        -- apply ENF. right. split; [|split; auto]; [destruct (N.eq_dec d dp) as [->|]|destruct (N.eq_dec d sp) as [->|]]; auto; right; intros ->.
           ++ destruct (KD _ _ X). congruence. ++ destruct (entry_fun _ _ _ _ _ _ _ X E). congruence.
        -- apply ENF in X. destruct X as [(-> & -> & -> & ->)|(_ & _ & X)]; [congruence|auto].
  - (* reachability *)
    assert (R1 : forall y, Reach F y -> (isdir F i -> ~ Below F i y) -> (isdir F i \/ True) -> isdir F i -> Reach G y).
    { apply (Reach_ind' F (fun y => (isdir F i -> ~ Below F i y) -> (isdir F i \/ True) -> isdir F i -> Reach G y)); [constructor|].
      intros y p Y R IH NY _ D. assert (y <> i) by (intros ->; apply NY; auto; constructor).
      eapply Reach_par; [apply PAo; eauto|]. apply IH; auto. intros _ B. apply (NY D). eapply Below_par; eauto. }
    assert (Ri' : isdir F i -> Reach G i).
    { intros D. eapply Reach_par; [apply PAi; eauto|]. apply R1; auto. apply W; auto. }
    assert (R2 : forall y, Reach F y -> Reach G y).
    { apply (Reach_ind' F (fun y => Reach G y)); [constructor|]. intros y p Y R IH. destruct (N.eq_dec y i) as [->|N].
      - apply Ri'. apply isdir_par; eauto. - eapply Reach_par; [apply PAo; eauto|]. auto. }
    intros x N D. apply R2, W. apply isdir_par. apply isdir_par in D. destruct D as [q D]. destruct (N.eq_dec x i) as [->|Ni].
    + apply PAi in D. apply isdir_par. apply D. + exists q. apply PAo; auto.
  - intros D. apply Dj in D. destruct (EJ D) as [X Y]. destruct (Njd D) as [N1 N2]. split; [|split].
    + destruct X as (q & sl & X & Z). exists q, sl. split; auto.
      assert (X1 : G1 j = F j) by (unfold G1; destruct (set_slot_at F dp kd (Some (dn, i)) j DP) as (_ & _ & _ & Q); auto).
      assert (X2 : G2 j = G1 j) by (unfold G2; destruct (set_slot_at G1 sp ks None j SP1) as (_ & _ & _ & Q); auto).
      unfold G, set_parent. destruct (G2 i) as [[? ? ?|? ?]|]; try rewrite upd_other; auto; congruence.
    + intros d k nm H. apply ENF in H. destruct H as [(_ & _ & _ & H)|(P & Q & H)]; [congruence|].
      destruct J as [(-> & _)|(J & _)]; [destruct D as (? & ? & D); rewrite (wf_none F W) in D; discriminate|].
      destruct D as (q & s' & D). destruct (wf_dir F W _ _ _ D Jr) as (k0 & nm0 & _ & Z). destruct (Z _ _ _ J) as [-> ->]. destruct (Z _ _ _ H) as [-> ->]. destruct P; auto.
    + intros x q NR H. destruct (N.eq_dec x i) as [->|Ni].
      * apply PAi in H. destruct H as [-> _]. auto.
      * apply PAo, par_spec in H; auto. destruct H as [sl H]. eapply empty_nokid; eauto.
Qed.

(** Changing the contents of a file. *)
Lemma file_WF F i nl sz b sz' b' : WF F -> F i = Some (AFile nl sz b) -> WF (upd F i (Some (AFile nl sz' b'))).
Proof.
  intros W H. set (G := upd F i (Some (AFile nl sz' b'))).
  assert (EN : forall d l nm x, entry G d l nm x <-> entry F d l nm x).
  { intros. unfold entry, G. destruct (upd_cases F i (Some (AFile nl sz' b')) d) as [[U ->]|[U N]]; rewrite U; [|tauto]. rewrite H. split; intros (? & ? & ? & _); discriminate. }
  assert (D : forall x p sl, G x = Some (ADir p sl) <-> F x = Some (ADir p sl)).
  { intros. unfold G. destruct (upd_cases F i (Some (AFile nl sz' b')) x) as [[U ->]|[U N]]; rewrite U; [|tauto]. rewrite H. split; discriminate. }
  constructor.
  - destruct (wf_root F W) as [sl R]. exists sl. apply D; auto.
  - unfold G. rewrite upd_other; [apply W|]. intros <-. rewrite (wf_none F W) in H. discriminate.
  - intros d k nm x E. apply EN in E. destruct (wf_ent F W _ _ _ _ E). split; auto. unfold G, upd. destruct (x =? i); auto; discriminate.
  - intros d k l nm x x' E E'. apply EN in E. apply EN in E'. eapply (wf_name F W); eauto.
  - intros x p sl E N. apply D in E. destruct (wf_dir F W _ _ _ E N) as (k & nm & A & B). exists k, nm. split; [apply EN; auto|]. intros d' k' nm' X. apply EN in X. eauto.
  - intros x nl0 sz0 b0 E. assert (exists sz1 b1, F x = Some (AFile nl0 sz1 b1)).
    { unfold G in E. destruct (upd_cases F i (Some (AFile nl sz' b')) x) as [[U ->]|[U N]]; rewrite U in E; [injection E as <- _ _; eauto|eauto]. }
    destruct H0 as (sz1 & b1 & H0). destruct (wf_file F W _ _ _ _ H0) as (A & L & B & C & P). split; auto. exists L. split; auto. split; auto.
    intros d k. rewrite P. split; intros [nm X]; exists nm; apply EN; auto.
  - intros x (p & sl & E). apply D in E. apply (Reach_mono F G).
    + intros y q Y. apply par_spec in Y. apply par_spec. destruct Y as [s Y]. exists s. apply D; auto.
    + apply W. exists p, sl; auto.
Qed.
Theorem op_write_WF F i start n src F' : WF F -> op_write F i start n src F' -> WF F'.
Proof. intros W (nl & sz & b & H & ->). eapply file_WF; eauto. Qed.
Theorem op_truncate_WF F i size F' : WF F -> op_truncate F i size F' -> WF F'.
Proof. intros W (nl & sz & b & H & ->). eapply file_WF; eauto. Qed.
