(** Model of tests/util/rand.c: the pseudo-random number generator. *)
From Verif Require Import Base.

(** tests/util/rand.c:74-76 ullA, ullC, ullT *)
Definition rA : N := 2862933555777941757.
Definition rC : N := 3037000493.
Definition rT : N := 4921441182957829599.
(** uint64_t ~x *)
Definition not64 (x : N) : N := N.lxor x 18446744073709551615.
(** tests/util/rand.c:119-122: the tempering *)
Definition temper (n : N) : N :=
  let n := N.lxor n (N.land (N.shiftr n 21) rT) in
  let n := N.lxor n (N.land (N.shiftr n 43) rT) in
  let n := N.lxor n (N.land (u64 (N.shiftl n 23)) (not64 rT)) in
  N.lxor n (N.land (u64 (N.shiftl n 31)) (not64 rT)).
(** tests/util/rand.c:71-125 RedRand64 with a seed pointer: the new seed and the number *)
Definition RedRand64 (seed : N) : N * N :=
  let n := u64 (u64 (seed * rA) + rC) in (n, temper n).
(** tests/util/rand.c:139-158 RedRand32 with a seed pointer *)
Definition RedRand32 (seed : N) : N * N :=
  let '(s, n) := RedRand64 seed in (u32 s, u32 n).
(** tests/util/rand.c:35, 39: ullGlobalRandomNumberSeed and fGlobalSeedInited, None if it is not set *)
Definition gseed := option N.
(** tests/util/rand.c:49-54 RedRandSeed *)
Definition RedRandSeed (s : N) (g : gseed) : gseed := Some s.
(** tests/util/rand.c:85-104 RedRand64(NULL); now: RedOsClockGetTime() *)
Definition RedRand64_null (now : N) (g : gseed) : gseed * N :=
  let g := match g with Some s => Some s | None => RedRandSeed (u64 now) g end in
  match g with Some s => let '(s, n) := RedRand64 s in (Some s, n) | None => (g, 0) end.
