(** Common definitions: machine integers, function update, result type.

    Unsigned C integers are modelled by [N]; wrap-around is written explicitly
    with [u8], [u16], [u32], [u64] wherever the C code could wrap. *)
From Coq Require Export NArith ZArith List Bool Lia.
From Coq Require Import ZifyBool ZifyNat ZifyN.
Export ListNotations.
Open Scope N_scope.

Ltac Zify.zify_post_hook ::= Z.div_mod_to_equations.

Global Arguments N.add : simpl never.
Global Arguments N.mul : simpl never.
Global Arguments N.sub : simpl never.
Global Arguments N.div : simpl never.
Global Arguments N.modulo : simpl never.
Global Arguments N.pow : simpl never.
Global Arguments N.eqb : simpl never.
Global Arguments N.ltb : simpl never.
Global Arguments N.leb : simpl never.
Global Arguments N.land : simpl never.
Global Arguments N.lor : simpl never.
Global Arguments N.lxor : simpl never.
Global Arguments N.shiftl : simpl never.
Global Arguments N.shiftr : simpl never.
Global Arguments N.min : simpl never.
Global Arguments N.max : simpl never.
Global Arguments N.to_nat : simpl never.
Global Arguments N.of_nat : simpl never.

(** Reduction of a value to the width of a C unsigned type. *)
Definition u8 (n : N) : N := n mod 256.
Definition u16 (n : N) : N := n mod 65536.
Definition u32 (n : N) : N := n mod 4294967296.
Definition u64 (n : N) : N := n mod 18446744073709551616.

(** include/redmacs.h:49-66 *)
Definition UINT8_MAX  : N := 255.
Definition UINT16_MAX : N := 65535.
Definition UINT32_MAX : N := 4294967295.
Definition UINT64_MAX : N := 18446744073709551615.
Definition INT32_MAX  : N := 2147483647.
Definition INT64_MAX  : N := 9223372036854775807.

(** Error codes, include/rederrno.h.  Only the identity of the code matters
    to the model, so an inductive type replaces the negated integers. *)
Inductive errno : Set :=
| EPERM | ENOENT | EIO | EBADF | ENOMEM | EBUSY | EEXIST | EXDEV | ENOTDIR
| EISDIR | EINVAL | ENFILE | EMFILE | EFBIG | ENOSPC | EROFS | EMLINK
| ERANGE | ENAMETOOLONG | ENOSYS | ENOTEMPTY | ENODATA | EUSERS
| EFUBAR (* RED_EFUBAR: internal/critical error *).

Definition errno_eq_dec (a b : errno) : {a = b} + {a <> b}.
Proof. decide equality. Defined.

Definition errno_eqb (a b : errno) : bool :=
  if errno_eq_dec a b then true else false.

Lemma errno_eqb_eq a b : errno_eqb a b = true <-> a = b.
Proof. unfold errno_eqb; destruct (errno_eq_dec a b); split; congruence. Qed.

(** Result of a C function returning REDSTATUS plus an out-parameter. *)
Inductive res (A : Type) : Type :=
| Ok (a : A)
| Err (e : errno).
Arguments Ok {A} a.
Arguments Err {A} e.

(** Point update of a total function (memory, disk, ...). *)
Definition upd {A : Type} (f : N -> A) (k : N) (v : A) : N -> A :=
  fun x => if x =? k then v else f x.

Lemma upd_same {A} (f : N -> A) k v : upd f k v k = v.
Proof. unfold upd; now rewrite N.eqb_refl. Qed.

Lemma upd_other {A} (f : N -> A) k v x : x <> k -> upd f k v x = f x.
Proof. intros; unfold upd. destruct (N.eqb_spec x k); congruence. Qed.

(** List helpers with N indices. *)
Definition nthN {A} (l : list A) (i : N) (d : A) : A := nth (N.to_nat i) l d.
Definition lenN {A} (l : list A) : N := N.of_nat (length l).

Fixpoint upd_nth {A} (l : list A) (i : nat) (v : A) : list A :=
  match l, i with
  | [], _ => []
  | _ :: t, O => v :: t
  | h :: t, S j => h :: upd_nth t j v
  end.
Definition updN {A} (l : list A) (i : N) (v : A) : list A := upd_nth l (N.to_nat i) v.

Lemma upd_nth_length {A} (l : list A) i v : length (upd_nth l i v) = length l.
Proof. revert i; induction l; destruct i; simpl; auto. Qed.

Lemma updN_length {A} (l : list A) i v : lenN (updN l i v) = lenN l.
Proof. unfold lenN, updN; now rewrite upd_nth_length. Qed.

Lemma nth_upd_nth {A} (l : list A) i j v d :
  (i < length l)%nat -> nth j (upd_nth l i v) d = if Nat.eqb j i then v else nth j l d.
Proof.
  revert i j; induction l; simpl; intros; try lia.
  destruct i, j; simpl; auto. apply IHl; lia.
Qed.

Lemma nthN_updN {A} (l : list A) i j v d :
  i < lenN l -> nthN (updN l i v) j d = if j =? i then v else nthN l j d.
Proof.
  unfold nthN, updN, lenN; intros. rewrite nth_upd_nth by lia.
  destruct (N.eqb_spec j i), (Nat.eqb_spec (N.to_nat j) (N.to_nat i)); auto; try lia.
Qed.

Lemma nthN_updN_out {A} (l : list A) i j v d :
  ~ i < lenN l -> nthN (updN l i v) j d = nthN l j d.
Proof.
  unfold nthN, updN, lenN; intros.
  replace (upd_nth l (N.to_nat i) v) with l; auto.
  assert (Hi : (length l <= N.to_nat i)%nat) by lia. clear H.
  revert Hi; generalize (N.to_nat i); induction l; destruct n; simpl; intros; auto; try lia.
  f_equal; apply IHl; lia.
Qed.

Definition bytes_ok (l : list N) : Prop := Forall (fun b => b < 256) l.

Lemma nthN_bytes_ok l i : bytes_ok l -> nthN l i 0 < 256.
Proof.
  unfold bytes_ok, nthN. intros H.
  destruct (Nat.lt_ge_cases (N.to_nat i) (length l)).
  - rewrite Forall_forall in H. apply H, nth_In; auto.
  - rewrite nth_overflow; auto; reflexivity.
Qed.

Lemma updN_bytes_ok l i v : bytes_ok l -> v < 256 -> bytes_ok (updN l i v).
Proof.
  unfold bytes_ok, updN. generalize (N.to_nat i); intros n H Hv; revert n.
  induction H; destruct n; simpl; constructor; auto.
Qed.
