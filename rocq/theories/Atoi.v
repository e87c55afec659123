(** Model of tests/util/atoi.c: conversion of numerals to integers.  A C string is the list of its characters (unsigned
    values) before the NUL; a returned pointer is its offset from pszNum, None is NULL; REDASSERTs are ignored. *)
From Verif Require Import Base.
From Coq Require Import List ZArith. Import ListNotations.

(** The character at an index: the NUL behind the last one (C strings; no function reads further). *)
Definition at_ (s : list N) (i : nat) : N := nth i s 0.
(** include/redtestutils.h:32 ISDIGIT *)
Definition ISDIGIT (c : N) : bool := (48 <=? c) && (c <=? 57).
(** tests/util/atoi.c:32 ISHEXDIGITU *)
Definition ISHEXDIGITU (c : N) : bool := (65 <=? c) && (c <=? 70).
(** tests/util/atoi.c:33 ISHEXDIGITL *)
Definition ISHEXDIGITL (c : N) : bool := (97 <=? c) && (c <=? 102).
(** tests/util/atoi.c:34 ISHEXDIGIT *)
Definition ISHEXDIGIT (c : N) : bool := ISHEXDIGITL c || ISHEXDIGITU c.

(** int32_t arithmetic.  Signed overflow is undefined in C; here it wraps, as gcc -fwrapv and common targets do. *)
Definition i32 (z : Z) : Z := ((z + 2147483648) mod 4294967296 - 2147483648)%Z.
(** tests/util/atoi.c:70-75: the loop of RedAtoI over the rest of the string *)
Fixpoint atoi_loop (s : list N) (v : Z) : Z :=
  match s with
  | c :: s' => if ISDIGIT c then atoi_loop s' (i32 (i32 (v * 10) + (Z.of_N c - 48))) else v
  | [] => v
  end.
(** tests/util/atoi.c:48-80 RedAtoI *)
Definition RedAtoI (s : list N) : Z :=
  let '(i, neg) := if at_ s 0 =? 43 then (1%nat, 1%Z) else if at_ s 0 =? 45 then (1%nat, (-1)%Z) else (0%nat, 1%Z) in
  i32 (atoi_loop (skipn i s) 0 * neg).

(** tests/util/atoi.c:162-190: the loop of RedHtoULL over the rest of the string; i: ulIdx; ret: pszReturn *)
Fixpoint htoull_loop (s : list N) (v : N) (i : nat) (ret : option nat) : N * option nat :=
  match s with
  | [] => (v, ret)
  | c :: s' =>
    if c =? 0 then (v, ret) else
    let dig := if ISDIGIT c then Some (c - 48) else if ISHEXDIGITU c then Some (c - 55) else if ISHEXDIGITL c then Some (c - 87) else None in
    match dig with
    | None => (v, ret)
    | Some d => htoull_loop s' (u64 (u64 (N.shiftl v 4) + d)) (S i) (Some (S i))
    end
  end.
(** tests/util/atoi.c:151-201 RedHtoULL: the number and the offset of the returned pointer *)
Definition RedHtoULL (s : list N) : option (N * nat) :=
  match htoull_loop s 0 0 None with (v, Some r) => Some (v, r) | (_, None) => None end.
(** tests/util/atoi.c:105-126 RedHtoUL *)
Definition RedHtoUL (s : list N) : option (N * nat) :=
  match RedHtoULL s with
  | Some (v, r) => if v <? UINT32_MAX then Some (v, r) else None
  | None => None
  end.

(** tests/util/atoi.c:262-265, 351-356: while(ISDIGIT(pszNum[ulIdx])) ulIdx++; the number of digits *)
Fixpoint digits (s : list N) : nat := match s with c :: s' => if ISDIGIT c then S (digits s') else O | [] => O end.
(** int32_t or uint32_t to uint32_t *)
Definition Z_u32 (z : Z) : N := Z.to_N (z mod 4294967296).
(** tests/util/atoi.c:224-295 RedNtoUL *)
Definition RedNtoUL (s : list N) : option (N * nat) :=
  let '(neg, i) := if at_ s 0 =? 45 then (true, 1%nat) else (false, 0%nat) in
  if (at_ s i =? 48) && ((at_ s (i + 1) =? 120) || (at_ s (i + 1) =? 88)) then
    let i := (i + 2)%nat in
    if ISDIGIT (at_ s i) || ISHEXDIGIT (at_ s i)
    then match RedHtoUL (skipn i s) with Some (v, r) => Some (v, (i + r)%nat) | None => None end
    else None
  else if ISDIGIT (at_ s i) then
    let t := Z_u32 (RedAtoI (skipn i s)) in
    let e := (i + digits (skipn i s))%nat in
    if neg then (if 2147483647 <? t then None else Some (Z_u32 (- Z.of_N t), e))
    else Some (t, e)
  else None.
(** tests/util/atoi.c:351-356: ullTemp *)
Fixpoint ntoull_loop (s : list N) (v : N) : N :=
  match s with c :: s' => if ISDIGIT c then ntoull_loop s' (u64 (u64 (v * 10) + (c - 48))) else v | [] => v end.
(** int64_t to uint64_t *)
Definition Z_u64 (z : Z) : N := Z.to_N (z mod 18446744073709551616).
(** tests/util/atoi.c:315-386 RedNtoULL *)
Definition RedNtoULL (s : list N) : option (N * nat) :=
  let '(neg, i) := if at_ s 0 =? 45 then (true, 1%nat) else (false, 0%nat) in
  if (at_ s i =? 48) && ((at_ s (i + 1) =? 120) || (at_ s (i + 1) =? 88)) then
    let i := (i + 2)%nat in
    if ISDIGIT (at_ s i) || ISHEXDIGIT (at_ s i)
    then match RedHtoULL (skipn i s) with Some (v, r) => Some (v, (i + r)%nat) | None => None end
    else None
  else if ISDIGIT (at_ s i) then
    let t := ntoull_loop (skipn i s) 0 in
    let e := (i + digits (skipn i s))%nat in
    if neg then (if 9223372036854775807 <? t then None else Some (Z_u64 (- Z.of_N t), e))
    else Some (t, e)
  else None.

(** tests/util/atoi.c:404-477 RedSizeToUL *)
Definition RedSizeToUL (s : list N) : option (N * nat) :=
  let is_b c := (c =? 66) || (c =? 98) in
  match RedNtoUL s with
  | None => None
  | Some (v, e) =>
    if is_b (at_ s e) then Some (v, (e + 1)%nat)
    else if ((at_ s e =? 77) || (at_ s e =? 109)) && is_b (at_ s (e + 1)) then
      if UINT32_MAX / 1048576 <? v then None else Some (u32 (v * 1048576), (e + 2)%nat)
    else
      let e' := if ((at_ s e =? 75) || (at_ s e =? 107)) && is_b (at_ s (e + 1)) then (e + 2)%nat else e in
      if UINT32_MAX / 1024 <? v then None else Some (u32 (v * 1024), e')
  end.
