(** Runs of the file system core in which the block device may fail.

    The functions of FsImap.v, FsInode.v, FsData.v, FsDir.v and FsCore.v are given a second time in Flt*.v, as relations
    between the state before, the result and the state after: any step that does input or output may fail.  A failing
    RedIoRead, RedIoWrite or RedIoFlush makes the volume read-only and returns -RED_EIO
    (core/driver/blockio.c:93-96, 151-154, 193-196; core/driver/volume.c:739-760 RedVolCriticalError); a buffer
    function passes the error on before it has changed anything (core/driver/buffer.c:180-340).  Some steps that
    cannot fail in the code may fail here; that only adds runs. *)
From Verif Require Import Base FsState FsImap FsInode FsData FsDir FsCore.

(** [m s r s']: from state s, m may end with result r in state s'. *)
Definition MF (S A : Type) : Type := S -> res A -> S -> Prop.
Definition MCF (A : Type) := MF (st * cin) A.
Definition MPF (A : Type) := MF (st * (cin * option cin)) A.
(** A step without input or output. *)
Definition pure {S A} (m : M S A) : MF S A := fun s r s' => m s = (r, s').
(** A step that may fail before it has any effect. *)
Definition io {A} (m : M st A) : MF st A := fun s r s' => m s = (r, s') \/ r = Err EIO /\ s' = set_ro true s.

Definition ret {S A} (a : A) : MF S A := pure (ret a).
Definition fail {S A} (e : errno) : MF S A := pure (fail e).
Definition lift_res {S A} (r : res A) : MF S A := pure (lift_res r).
Definition bind {S A B} (m : MF S A) (k : A -> MF S B) : MF S B := fun s r s' =>
  exists r1 s1, m s r1 s1 /\ match r1 with Ok a => k a s1 r s' | Err e => r = Err e /\ s' = s1 end.
Definition attempt {S A} (m : MF S A) : MF S (res A) := fun s r s' => exists r1, m s r1 s' /\ r = Ok r1.
Definition gets {A} (f : st -> A) : MF st A := io (gets f).
Definition modify (f : st -> st) : MF st unit := io (modify f).
Declare Scope flt_scope.
Delimit Scope flt_scope with flt.
Notation "x <- m ;; k" := (bind m (fun x => k)) (at level 61, m at next level, right associativity) : flt_scope.
Notation "' p <- m ;; k" := (bind m (fun p => k)) (at level 61, p pattern, m at next level, right associativity) : flt_scope.
Notation "m ;;; k" := (bind m (fun _ => k)) (at level 61, right associativity) : flt_scope.
Open Scope flt_scope.

Definition critical {A} (e : errno) : MF st A := pure (critical e).
Definition critical_assert {A} (m : MF st A) : MF st A := fun s r s' =>
  exists s1, m s r s1 /\ s' = match r with Ok _ => s1 | Err _ => set_ro true s1 end.
Definition critical_assert_c {A} (m : MCF A) : MCF A := fun s r s' =>
  exists s1, m s r s1 /\ s' = match r with Ok _ => s1 | Err _ => (set_ro true (fst s1), snd s1) end.
Fixpoint loop {S} (n : nat) (i : N) (body : N -> MF S unit) : MF S unit :=
  match n with O => ret tt | Datatypes.S k => body i ;;; loop k (i + 1) body end.

(** The combinators of FsInode.v, FsDir.v and FsCore.v for structures held by the caller. *)
Definition lift {A} (m : MF st A) : MCF A := fun x r x' => m (fst x) r (fst x') /\ snd x' = snd x.
Definition getc : MCF cin := pure getc.
Definition modc (f : cin -> cin) : MCF unit := pure (modc f).
Definition iset (f : inode -> inode) : MCF unit := pure (iset f).
Definition liftp {A} (m : MF st A) : MPF A := fun x r x' => m (fst x) r (fst x') /\ snd x' = snd x.
Definition onsrc {A} (m : MCF A) : MPF A := fun x r x' =>
  m (fst x, fst (snd x)) r (fst x', fst (snd x')) /\ snd (snd x') = snd (snd x).
Definition ondst {A} (m : MCF A) : MPF A := fun x r x' =>
  match snd (snd x) with
  | None => m (fst x, fst (snd x)) r (fst x', fst (snd x')) /\ snd (snd x') = None
  | Some cd => exists cd', m (fst x, cd) r (fst x', cd') /\ snd x' = (fst (snd x), Some cd')
  end.
Definition runc {A} (m : MCF A) (c : cin) : MF st (res A * cin) := fun s r s' =>
  exists r1 c', m (s, c) r1 (s', c') /\ r = Ok (r1, c').
Definition finish {A} (m : MCF A) (c : cin) : MF st A := fun s r s' => exists c', m (s, c) r (s', c').
(** inode.c:170-180: the result of RedInodeMount is the structure *)
Definition runm {A} (m : MCF A) (c : cin) : MF st cin := fun s r s' =>
  exists r1 c', m (s, c) r1 (s', c') /\ r = match r1 with Ok _ => Ok c' | Err e => Err e end.
Definition runp {A} (m : MPF A) (x : cin * option cin) : MF st A := fun s r s' => exists x', m (s, x) r (s', x').
Definition use_reserved (g : cfg) (v : bool) : MF st unit := pure (use_reserved g v).
(** The check at the start of the functions of core.c. *)
Definition rocheck {A} (m : MF st A) : MF st A := fun s r s' => if s_ro s then r = Err EROFS /\ s' = s else m s r s'.
(** RedIoWrite of several blocks: when it fails, any of them may have been written, completely or not. *)
Definition io_wr (g : cfg) (n : nat) (b : N) (src : N -> N) : MF st unit := fun s r s' =>
  r = Ok tt /\ s' = io_write g n b src s \/
  r = Err EIO /\ exists dk', s' = set_ro true (set_dk dk' (io_write g n b src s)).
