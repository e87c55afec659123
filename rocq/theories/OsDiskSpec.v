(** A disk of the operating system as its user sees it, independently of OsDisk.v. *)
From Verif Require Import Base.
From Coq Require Import List. Import ListNotations.
Open Scope N_scope.

Inductive mode := RDWR | RDONLY | WRONLY.
Inductive kind := RamDisk | FileDisk.
(** A host file: its size and bytes *)
Record hostfile := mkF { f_size : N; f_data : N -> N }.
(** What the host does in a transfer: fail, or move at most k bytes *)
Inductive moved := HFail | HMoved (k : N).
(** Calls, with what the host does (booleans: succeeds); Config: the file found under the new name and whether it is a device *)
Inductive call :=
| Config (v : N) (ty : kind) (f : hostfile) (isdev : bool) (name_ok : bool)
| Open (v : N) (m : mode) (h : bool)
| Close (v : N) (hflush hclose : bool)
| Read (v start count : N) (buf : N -> N) (h : moved)
| Write (v start count : N) (buf : N -> N) (h : moved)
| Flush (v : N) (h : bool).
(** The status returned (0 is success), and the caller's buffer after it *)
Record answer := mkA { status : Z; buffer : N -> N }.

(** What is known about the bytes of volume v, None: nothing *)
Definition known := N -> N -> option N.
Definition unknown : known := fun _ _ => None.
Section spec.
Variable ssize : N -> N. (* bytes in a sector of volume v *)
(** Byte a is in one of count sectors from start on *)
Definition covers (v start count a : N) : Prop := start * ssize v <= a < (start + count) * ssize v.
(** How a call may be answered, and what is known after it *)
Inductive answered (K : known) : call -> answer -> known -> Prop :=
| A_config v ty f d n r K' : (forall w a, w <> v -> K' w a = K w a) -> (forall a, K' v a = if (status r =? 0)%Z then None else K v a) ->
    answered K (Config v ty f d n) r K'
| A_open v m h r : answered K (Open v m h) r K
| A_close v h1 h2 r : answered K (Close v h1 h2) r K
| A_flush v h r : answered K (Flush v h) r K
| A_read v start count buf h r K' : status r = 0%Z ->
    (* bytes that are known are read so; the others are known now; nothing behind the sectors is stored in the buffer *)
    (forall i b, i < count * ssize v -> K v (start * ssize v + i) = Some b -> buffer r i = b) ->
    (forall i, count * ssize v <= i -> buffer r i = buf i) ->
    (forall i, i < count * ssize v -> K' v (start * ssize v + i) = Some (buffer r i)) ->
    (forall w a, w <> v \/ ~ covers v start count a -> K' w a = K w a) -> answered K (Read v start count buf h) r K'
| A_read_fail v start count buf h r : status r <> 0%Z -> answered K (Read v start count buf h) r K
| A_write v start count buf h r K' :
    (* the bytes written are known, or, after a failure, nothing about them; all others stay *)
    (forall i, i < count * ssize v -> K' v (start * ssize v + i) = if (status r =? 0)%Z then Some (buf i) else None) ->
    (forall w a, w <> v \/ ~ covers v start count a -> K' w a = K w a) -> answered K (Write v start count buf h) r K'
| A_write_refused v start count buf h r : status r <> 0%Z -> answered K (Write v start count buf h) r K.
Inductive history (K : known) : list (call * answer) -> Prop :=
| H_nil : history K []
| H_cons c r K' l : answered K c r K' -> history K' l -> history K ((c, r) :: l).
End spec.
