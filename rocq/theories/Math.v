(** Model of tests/util/math.c: 64-bit division without 64-bit divide instructions, and scaling.
    Unsigned wrap-around is explicit ([u32], [u64]); loops run on fuel and yield None when it runs out (the
    theorems of PropMath.v say that it does not).  Output pointers are results. *)
From Verif Require Import Base.

(** tests/util/math.c:437-446: while(ulInterimHi != 0U) on the pair (ulInterimHi, ulInterimLo) and ulThisDivision. *)
Fixpoint sub_loop (fuel : nat) (d hi lo this : N) : option (N * N) :=
  if hi =? 0 then Some (lo, this)
  else match fuel with
  | O => None
  | S k =>
    let interim := u64 (u64 (N.shiftl hi 32 + lo) + 18446744073709551616 - d) in
    sub_loop k d (u32 (N.shiftr interim 32)) (u32 interim) (u32 (this + 1))
  end.
(** tests/util/math.c:432-452: the body of the for loop, on (ulResultLo, ulRemainder); [next]: ucNextValue. *)
Definition div_byte (d next : N) (st : N * N) : option (N * N) :=
  let '(reslo, rem) := st in
  match sub_loop 256 d (N.shiftr rem 24) (N.lor (u32 (N.shiftl rem 8)) next) 0 with
  | None => None
  | Some (lo, this) => Some (u32 (u32 (N.shiftl reslo 8) + u32 (this + lo / d)), lo mod d)
  end.
(** tests/util/math.c:430-452: bIndex = 0..3; ulMask selects the bytes of ulLowDword from the highest to the lowest. *)
Definition div_low (d low hirem : N) : option (N * N) :=
  let byte mask sh := u8 (N.shiftr (N.land low mask) sh) in
  match div_byte d (byte 4278190080 24) (0, hirem) with None => None | Some s =>
  match div_byte d (byte 16711680 16) s with None => None | Some s =>
  match div_byte d (byte 65280 8) s with None => None | Some s =>
  div_byte d (byte 255 0) s end end end.
(** tests/util/math.c:383-464 RedUint64DivMod32: quotient and remainder. *)
Definition RedUint64DivMod32 (a d : N) : option (N * N) :=
  if d =? 0 then Some (18446744073709550509, 4294966189)
  else if a <=? UINT32_MAX then Some (u32 a / d, u32 a mod d)
  else
    let lowd := u32 a in
    let highd := u32 (N.shiftr a 32) in
    match div_low d lowd (highd mod d) with
    | None => None
    | Some (reslo, _) =>
      let q := u64 (N.shiftl (highd / d) 32 + reslo) in
      Some (q, u32 (u64 (a + 18446744073709551616 - u64 (q * d))))
    end.

(** tests/util/math.c:588-641 nlz64 *)
Definition nlz64 (x : N) : N :=
  if x =? 0 then 64 else
  let step c k s := let '(n, x) := s in if x <=? c then (n + k, u64 (N.shiftl x k)) else (n, x) in
  let s := step 4294967295 32 (0, x) in
  let s := step 281474976710655 16 s in
  let s := step 72057594037927935 8 s in
  let s := step 1152921504606846975 4 s in
  let s := step 4611686018427387903 2 s in
  let '(n, x) := s in if x <=? 9223372036854775807 then n + 1 else n.
(** tests/util/math.c:489-578 RedUint64DivMod64: quotient and remainder. *)
Definition RedUint64DivMod64 (a d : N) : option (N * N) :=
  let q :=
    if N.shiftr d 32 =? 0 then
      if N.shiftr a 32 <? d then option_map fst (RedUint64DivMod32 a (u32 d))
      else
        match RedUint64DivMod32 (N.shiftr a 32) (u32 d) with None => None | Some (q1, k) =>
        match RedUint64DivMod32 (u64 (u64 (N.shiftl k 32) + N.land a 4294967295)) (u32 d) with None => None | Some (q0, _) =>
        Some (u64 (u64 (N.shiftl q1 32) + q0)) end end
    else
      let n := nlz64 d in
      let v1 := N.shiftr (u64 (N.shiftl d n)) 32 in
      let u1 := N.shiftr a 1 in
      match RedUint64DivMod32 u1 (u32 v1) with None => None | Some (q1, _) =>
      let q0 := N.shiftr (u64 (N.shiftl q1 n)) 31 in
      let q0 := if negb (q0 =? 0) then q0 - 1 else q0 in
      Some (if d <=? u64 (a + 18446744073709551616 - u64 (q0 * d)) then u64 (q0 + 1) else q0) end
  in match q with None => None | Some q => Some (q, u64 (a + 18446744073709551616 - u64 (q * d))) end.

(** tests/util/math.c:270-346 RedMulDiv64, code paths 2 to 4 *)
Definition muldiv_rest (base mult dv temp : N) : option N :=
  match RedUint64DivMod64 base dv with None => None | Some (bt, md) =>
  if md =? 0 then Some (if temp <? bt then UINT64_MAX else u64 (bt * mult))
  else match RedUint64DivMod64 mult dv with None => None | Some (wm, md) =>
  if md =? 0 then
    match RedUint64DivMod64 UINT64_MAX base with None => None | Some (temp, _) =>
    Some (if temp <? wm then UINT64_MAX else u64 (base * u32 wm)) end
  else
    let '(base, mult) := if base <? mult then (mult, u32 base) else (base, mult) in
    match RedUint64DivMod64 base dv with None => None | Some (base, _) =>
    match RedUint64DivMod32 UINT64_MAX mult with None => None | Some (temp, _) =>
    Some (if temp <? base then UINT64_MAX else u64 (base * mult)) end end end end.
(** tests/util/math.c:226-353 the loop of RedMulDiv64 and what follows it *)
Fixpoint muldiv_loop (fuel : nat) (base mult dv temp : N) : option N :=
  if temp <? base then
    match fuel with
    | O => None
    | S k =>
      if N.land dv 1 =? 0 then
        if N.land base 1 =? 0 then muldiv_loop k (N.shiftr base 1) mult (N.shiftr dv 1) temp
        else if (N.land mult 1 =? 0) && (N.land temp 9223372036854775808 =? 0)
        then muldiv_loop k base (N.shiftr mult 1) (N.shiftr dv 1) (u64 (N.shiftl temp 1))
        else muldiv_rest base mult dv temp
      else muldiv_rest base mult dv temp
    end
  else option_map fst (RedUint64DivMod64 (u64 (base * mult)) dv).
(** tests/util/math.c:184-226 RedMulDiv64 *)
Definition RedMulDiv64 (base mult dv : N) : option N :=
  if (base =? 0) || (mult =? 0) then Some 0
  else if dv =? 0 then Some UINT64_MAX
  else match RedUint64DivMod32 UINT64_MAX mult with None => None | Some (temp, _) => muldiv_loop 64 base mult dv temp end.

(** tests/util/math.c:95-158 RedRatio: the two numbers printed (before and after the point); None if the dividend or divisor is zero
    ("0.0").  The formatting (RedSNPrintf) is not modelled. *)
Definition RedRatio (dividend divisor places : N) : option (option (N * N)) :=
  if (0 <? divisor) && (0 <? dividend) then
    let factor := u32 (10 ^ places) in
    match RedMulDiv64 dividend factor divisor with None => None | Some dec =>
    match (if divisor <=? dividend then option_map snd (RedUint64DivMod32 dec factor) else Some dec) with None => None | Some dec =>
    match RedUint64DivMod64 dividend divisor with None => None | Some (t, _) =>
    Some (Some (t, dec)) end end end
  else Some None.
