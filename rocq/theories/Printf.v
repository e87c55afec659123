(** Model of tests/util/printf.c: RedVSNPrintf.  A C string is the list of its characters before the NUL; the output buffer is
    a map from indices to characters (every index, so that writes outside of the buffer would be seen); the va_list is a list
    of integers and strings, and reading a missing argument or one of the other kind (undefined in C) yields None.
    LP64: long is 64 bits wide, as are pointers (printf.c:74-132 maps the C types; the 8-bit types are never selected). *)
From Verif Require Import Base Atoi Math.

(** printf.c:55-74 PRINTTYPE; the argument is the width in bits.  PRFMT_POINTER is a 64-bit hexadecimal number. *)
Inductive pty := PChar | PStr | PSigned (w : N) | PUnsigned (w : N) | PHex (w : N) | PPct.
(** printf.c:76-85 PRINTFORMAT (fHasIllegalType is never read) *)
Record pformat := mkF { f_type : pty; f_idx : nat; f_fill : N; f_char : N; f_left : bool; f_var : bool }.
Inductive arg := AInt (z : Z) | AStr (s : option (list N)).
Definition buf := N -> N.
Definition upd (b : buf) (i c : N) : buf := fun j => if j =? i then c else b j.
(** Characters cs to the buffer from index i, as long as there is space (all the copying loops of printf.c have this form);
    the result has the index behind the last one. *)
Fixpoint put (b : buf) (i len : N) (cs : list N) : buf * N :=
  match cs with [] => (b, i) | c :: r => if i <? len then put (upd b i c) (i + 1) len r else (b, i) end.
(** "If there is room, null-terminate": printf.c:698-704, 1256-1260, 601-605 *)
Definition nul (b : buf) (i len : N) : buf := if i <? len then upd b i 0 else b.

(** printf.c:820-922 ParseFormatType: the type and its length *)
Definition ParseFormatType (s : list N) (i : nat) : option (pty * nat) :=
  let at1 := at_ s (i + 1) in let at2 := at_ s (i + 2) in
  let c := at_ s i in
  if c =? 37 then Some (PPct, 1%nat)
  else if c =? 99 then Some (PChar, 1%nat)
  else if c =? 115 then Some (PStr, 1%nat)
  else if c =? 112 then Some (PHex 64, 1%nat)
  else if c =? 100 then Some (PSigned 32, 1%nat)
  else if c =? 117 then Some (PUnsigned 32, 1%nat)
  else if c =? 120 then Some (PHex 32, 1%nat)
  else if c =? 104 then
    if at1 =? 100 then Some (PSigned 16, 2%nat) else if at1 =? 117 then Some (PUnsigned 16, 2%nat)
    else if at1 =? 120 then Some (PHex 16, 2%nat) else None
  else if c =? 108 then
    if at1 =? 100 then Some (PSigned 64, 2%nat) else if at1 =? 117 then Some (PUnsigned 64, 2%nat)
    else if at1 =? 120 then Some (PHex 64, 2%nat)
    else if at1 =? 108 then
      if at2 =? 100 then Some (PSigned 64, 3%nat) else if at2 =? 117 then Some (PUnsigned 64, 3%nat)
      else if (at2 =? 120) || (at2 =? 88) then Some (PHex 64, 3%nat) else None
    else None
  else None.

(** printf.c:748-752: the flag "-" *)
Definition flag_minus (s : list N) (i : nat) : bool * nat := if at_ s i =? 45 then (true, (i + 1)%nat) else (false, i).
(** printf.c:754-762: the fill character *)
Definition flag_fill (s : list N) (i : nat) : N * nat :=
  if (at_ s i =? 48) || (at_ s i =? 95) then (at_ s i, (i + 1)%nat) else (32, i).
(** printf.c:764-780: the field width: fHasVarWidth, ulFillLen *)
Definition field_width (s : list N) (i : nat) : bool * N * nat :=
  if at_ s i =? 42 then (true, 0, (i + 1)%nat)
  else if ISDIGIT (at_ s i) then (false, Z_u32 (RedAtoI (skipn i s)), (i + digits (skipn i s))%nat)
  else (false, 0, i).
(** printf.c:721-805 ParseFormatSpecifier: the length of the specifier and its description; None if there is none *)
Fixpoint parse_spec (fuel : nat) (s : list N) (i : nat) : option (nat * pformat) :=
  match fuel with
  | O => None
  | S k =>
    let c := at_ s i in
    if c =? 0 then None
    else if negb (c =? 37) then parse_spec k s (i + 1)
    else
      let sp := i in
      let '(lj, i) := flag_minus s (i + 1) in
      let '(fc, i) := flag_fill s i in
      let '(var, fill, i) := field_width s i in
      match ParseFormatType s i with
      | Some (ty, tl) => Some ((i - sp + tl)%nat, mkF ty sp fill fc lj var)
      | None => parse_spec k s (sp + 1)
      end
  end.
Definition ParseFormatSpecifier (s : list N) := parse_spec (S (length s)) s 0.

(** printf.c:157 gacDigits *)
Definition gacDigits : list N := [48; 49; 50; 51; 52; 53; 54; 55; 56; 57; 65; 66; 67; 68; 69; 70].
Definition dig (d : N) : N := nth (N.to_nat d) gacDigits 0.
(** The digits in the array ach, least significant first; None if [size] is too small.
    printf.c:942-992, 1091-1125: 32-bit numbers *)
Fixpoint digits32 (size : nat) (radix n : N) : option (list N) :=
  match size with O => None | S k =>
    if n / radix =? 0 then Some [dig (n mod radix)] else option_map (cons (dig (n mod radix))) (digits32 k radix (n / radix)) end.
(** printf.c:1012-1073, 1143-1202: 64-bit numbers, decimal *)
Fixpoint digits64 (size : nat) (n : N) : option (list N) :=
  match size with O => None | S k =>
    match RedUint64DivMod32 n 10 with
    | None => None
    | Some (q, r) => if q =? 0 then Some [dig r] else option_map (cons (dig r)) (digits64 k q)
    end end.
(** printf.c:1143-1202: 64-bit numbers, hexadecimal *)
Fixpoint hexdigits64 (size : nat) (n : N) : option (list N) :=
  match size with O => None | S k =>
    if N.shiftr n 4 =? 0 then Some [dig (N.land n 15)] else option_map (cons (dig (N.land n 15))) (hexdigits64 k (N.shiftr n 4)) end.
(** printf.c:1223-1263 FinishToA; [ds]: pcDigits *)
Definition FinishToA (ds : list N) (b : buf) (i len fill fc : N) : buf * N :=
  let n := N.of_nat (length ds) in
  let '(b, i) := if n <? fill then put b i len (repeat fc (N.to_nat (fill - n))) else (b, i) in
  let '(b, i) := put b i len (rev ds) in
  (nul b i len, i).
(** printf.c:942-992 LtoA and 1012-1073 LLtoA (w: 16, 32 or 64; ach[12], ach[21], with one place for the sign) *)
Definition LtoA (w : N) (z : Z) (b : buf) (i len fill fc : N) : option (buf * N) :=
  let n := if (z <? 0)%Z then (if w =? 64 then Z_u64 (- z) else Z_u32 (- z)) else Z.to_N z in
  match (if w =? 64 then digits64 20 n else digits32 11 10 n) with
  | None => None
  | Some ds => Some (FinishToA (if (z <? 0)%Z then ds ++ [45] else ds) b i len fill fc)
  end.
(** printf.c:1091-1125 ULtoA and 1143-1202 ULLtoA (ach[11], ach[21]) *)
Definition ULtoA (w : N) (n : N) (hex : bool) (b : buf) (i len fill fc : N) : option (buf * N) :=
  match (if w =? 64 then (if hex then hexdigits64 21 n else digits64 21 n) else digits32 11 (if hex then 16 else 10) n) with
  | None => None
  | Some ds => Some (FinishToA ds b i len fill fc)
  end.
(** va_arg and the conversion to a signed integer type of w bits *)
Definition to_signed (w : N) (z : Z) : Z := let m := (2 ^ Z.of_N w)%Z in ((z + m / 2) mod m - m / 2)%Z.
Definition to_unsigned (w : N) (z : Z) : N := Z.to_N (z mod 2 ^ Z.of_N w).
(** printf.c:382-597: the switch on fmt.type; the result has the arguments left *)
Definition convert (f : pformat) (b : buf) (i len : N) (args : list arg) : option (buf * N * list arg) :=
  let fin (r : option (buf * N)) (args : list arg) := match r with Some (b, i) => Some (b, i, args) | None => None end in
  match f_type f, args with
  | PPct, _ => Some (b, i, args)
  | PChar, AInt z :: r => Some (upd b i (to_unsigned 8 z), i + 1, r)
  | PSigned w, AInt z :: r => fin (LtoA w (to_signed w z) b i len (f_fill f) (f_char f)) r
  | PUnsigned w, AInt z :: r => fin (ULtoA w (to_unsigned w z) false b i len (f_fill f) (f_char f)) r
  | PHex w, AInt z :: r => fin (ULtoA w (to_unsigned w z) true b i len (f_fill f) (f_char f)) r
  | PStr, AStr s :: r =>
    let str := match s with Some s => s | None => [110; 117; 108; 108] end in
    let fill := f_fill f in
    let '(b1, i1) := if f_left f then (b, i) else put b i len (repeat (f_char f) (N.to_nat (fill - N.of_nat (length str)))) in
    let fill := fill - (i1 - i) in
    let '(b2, i2) := put b1 i1 len str in
    let fill := fill - (i2 - i1) in
    Some (put b2 i2 len (repeat 32 (N.to_nat fill)), r)
  | _, _ => None
  end.
(** printf.c:333-598: the loop; ProcessFormatSegment (644-707) is expanded.  s: the format from ulFmtIdx on *)
Fixpoint vloop (fuel : nat) (b : buf) (i len : N) (s : list N) (args : list arg) : option (buf * N) :=
  if (at_ s 0 =? 0) || negb (i <? len) then Some (b, i) else
  match fuel with
  | O => None
  | S k =>
    match ParseFormatSpecifier s with
    | None =>
      let '(b, i) := put b i len s in Some (nul b i len, i)
    | Some (sl, f) =>
      let '(sl, idx) := match f_type f with PPct => ((sl - 1)%nat, S (f_idx f)) | _ => (sl, f_idx f) end in
      let '(b, i) := put b i len (firstn idx s) in
      let b := nul b i len in
      if (sl =? 0)%nat || (i =? len) then Some (b, i) else
      let s := skipn (idx + sl) s in
      let fa := if f_var f
        then match args with
             | AInt z :: r => Some (mkF (f_type f) (f_idx f) (if (0 <=? to_signed 32 z)%Z then Z.to_N (to_signed 32 z) else 0) (f_char f) (f_left f) true, r)
             | _ => None end
        else Some (f, args) in
      match fa with
      | None => None
      | Some (f, args) =>
        match convert f b i len args with
        | None => None
        | Some (b, i, args) => vloop k b i len s args
        end
      end
    end
  end.
(** printf.c:323-617 RedVSNPrintf (RedSNPrintf is the same): the buffer and the return value *)
Definition RedVSNPrintf (b : buf) (len : N) (s : list N) (args : list arg) : option (buf * Z) :=
  match vloop (S (length s)) b 0 len s args with
  | None => None
  | Some (b, i) => Some (if i <? len then (upd b i 0, i32 (Z.of_N i)) else (b, (-1)%Z))
  end.
