(** Weakest preconditions for the state monads of the model. *)
From Verif Require Import Base FsState FsImap FsInode.

Definition wp {S A} (m : M S A) (s : S) (Q : res A -> S -> Prop) : Prop := Q (fst (m s)) (snd (m s)).

Lemma wp_eq {S A} (m : M S A) s r s' (Q : res _ -> _ -> Prop) : m s = (r, s') -> Q r s' -> wp m s Q.
Proof. unfold wp. intros ->. auto. Qed.
Lemma wp_run {S A} (m : M S A) s (Q : res A -> S -> Prop) r s' : wp m s Q -> m s = (r, s') -> Q r s'.
Proof. unfold wp. intros H E. now rewrite E in H. Qed.
Lemma wp_cons {S A} (m : M S A) s (P Q : res A -> S -> Prop) :
  wp m s P -> (forall r s', P r s' -> Q r s') -> wp m s Q.
Proof. unfold wp. auto. Qed.
Lemma wp_and {S A} (m : M S A) s (P Q : res A -> S -> Prop) :
  wp m s P -> wp m s Q -> wp m s (fun r s' => P r s' /\ Q r s').
Proof. unfold wp. auto. Qed.

Lemma wp_ret {S A} (a : A) (s : S) (Q : res _ -> _ -> Prop) : Q (Ok a) s -> wp (ret a) s Q.
Proof. auto. Qed.
Lemma wp_fail {S A} e (s : S) (Q : res A -> S -> Prop) : Q (Err e) s -> wp (fail e) s Q.
Proof. auto. Qed.
Lemma wp_bind {S A B} (m : M S A) (k : A -> M S B) s (Q : res _ -> _ -> Prop) :
  wp m s (fun r s' => match r with Ok a => wp (k a) s' Q | Err e => Q (Err e) s' end) -> wp (bind m k) s Q.
Proof. unfold wp, bind. destruct (m s) as [[a|e] s']; auto. Qed.
Lemma wp_bind_ok {S A B} (m : M S A) (k : A -> M S B) s a s' (Q : res _ -> _ -> Prop) :
  m s = (Ok a, s') -> wp (k a) s' Q -> wp (bind m k) s Q.
Proof. unfold wp, bind. intros ->. auto. Qed.
Lemma wp_bind_err {S A B} (m : M S A) (k : A -> M S B) s e s' (Q : res _ -> _ -> Prop) :
  m s = (Err e, s') -> Q (Err e) s' -> wp (bind m k) s Q.
Proof. unfold wp, bind. intros ->. auto. Qed.
Lemma bind_ok {S A B} (m : M S A) (k : A -> M S B) s a s' : m s = (Ok a, s') -> bind m k s = k a s'.
Proof. unfold bind. now intros ->. Qed.
Lemma bind_err {S A B} (m : M S A) (k : A -> M S B) s e s' : m s = (Err e, s') -> bind m k s = (Err e, s').
Proof. unfold bind. now intros ->. Qed.
Lemma attempt_run {S A} (m : M S A) s r s' : m s = (r, s') -> attempt m s = (Ok r, s').
Proof. unfold attempt. now intros ->. Qed.
Lemma wp_attempt {S A} (m : M S A) s (Q : res _ -> _ -> Prop) : wp m s (fun r s' => Q (Ok r) s') -> wp (attempt m) s Q.
Proof. unfold wp, attempt. destruct (m s); auto. Qed.
Lemma wp_gets {S A} (f : S -> A) s (Q : res _ -> _ -> Prop) : Q (Ok (f s)) s -> wp (gets f) s Q.
Proof. auto. Qed.
Lemma wp_modify {S} (f : S -> S) s (Q : res _ -> _ -> Prop) : Q (Ok tt) (f s) -> wp (modify f) s Q.
Proof. auto. Qed.
Lemma wp_lift {A} (m : M st A) s c (Q : res _ -> _ -> Prop) : wp m s (fun r s' => Q r (s', c)) -> wp (lift m) (s, c) Q.
Proof. unfold wp, lift. cbn [fst snd]. destruct (m s); auto. Qed.
Lemma wp_getc s c (Q : res _ -> _ -> Prop) : Q (Ok c) (s, c) -> wp getc (s, c) Q.
Proof. auto. Qed.
Lemma wp_modc f s c (Q : res _ -> _ -> Prop) : Q (Ok tt) (s, f c) -> wp (modc f) (s, c) Q.
Proof. auto. Qed.
Lemma wp_critical_assert {A} (m : M st A) s (Q : res _ -> _ -> Prop) :
  wp m s (fun r s' => match r with Ok a => Q (Ok a) s' | Err e => Q (Err e) (set_ro true s') end) ->
  wp (critical_assert m) s Q.
Proof. unfold wp, critical_assert. destruct (m s) as [[a|e] s']; auto. Qed.

(** The simple sequential steps. *)
Ltac wstep := first
  [ apply wp_bind; apply wp_getc; cbv beta iota
  | apply wp_bind; apply wp_modc; cbv beta iota
  | apply wp_bind; apply wp_ret; cbv beta iota
  | apply wp_bind; apply wp_lift; apply wp_gets; cbv beta iota
  | apply wp_bind; apply wp_lift; apply wp_modify; cbv beta iota
  | apply wp_getc | apply wp_modc | apply wp_ret | apply wp_fail
  | apply wp_lift; apply wp_gets | apply wp_lift; apply wp_modify ].
