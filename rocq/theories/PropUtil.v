(** Property theorems for the utility layer: C07, C11, C12, C13, C31. *)
From Verif Require Import Base Bitmap Endian Crc Mem.

Theorem C07_bitmap : forall bm i j, bytes_ok bm -> i / 8 < lenN bm ->
    RedBitGet (RedBitSet bm i) j = (if j =? i then true else RedBitGet bm j) /\
    RedBitGet (RedBitClear bm i) j = (if j =? i then false else RedBitGet bm j) /\
    (forall k, k <> i / 8 -> nthN (RedBitSet bm i) k 0 = nthN bm k 0) /\
    (forall k, k <> i / 8 -> nthN (RedBitClear bm i) k 0 = nthN bm k 0) /\
    length (RedBitSet bm i) = length bm /\ length (RedBitClear bm i) = length bm /\
    bytes_ok (RedBitSet bm i) /\ bytes_ok (RedBitClear bm i) /\
    RedBitGet bm i = N.testbit (nthN bm (i / 8) 0) (7 - i mod 8).
Proof. exact bitmap_law. Qed.
Print Assumptions C07_bitmap.

Theorem C11_crc_variants : forall init buf unaligned, init < 2 ^ 32 -> bytes_ok buf ->
  RedCrc32Update_sarwate init buf = RedCrc32Update_bitwise init buf /\
  RedCrc32Update_slice8 unaligned init buf = RedCrc32Update_bitwise init buf.
Proof. exact crc_variants_agree. Qed.
Print Assumptions C11_crc_variants.

Theorem C12_crc_compose : forall init a b,
  RedCrc32Update_bitwise init (a ++ b) = RedCrc32Update_bitwise (RedCrc32Update_bitwise init a) b.
Proof. exact crc_compose. Qed.
Print Assumptions C12_crc_compose.

Theorem C12_crc_burst : forall init a b p,
  bytes_ok a -> bytes_ok b -> length a = length b -> a <> b ->
  (forall k, k < p \/ p + 32 <= k -> buf_bit a k = buf_bit b k) ->
  RedCrc32Update_bitwise init a <> RedCrc32Update_bitwise init b.
Proof. exact crc_burst. Qed.
Print Assumptions C12_crc_burst.

Theorem C13_endian :
  (forall x, x < 2 ^ 16 -> le_bytes 2 (RedRev16 x) = rev (le_bytes 2 x) /\ RedRev16 (RedRev16 x) = x) /\
  (forall x, x < 2 ^ 32 -> le_bytes 4 (RedRev32 x) = rev (le_bytes 4 x) /\ RedRev32 (RedRev32 x) = x) /\
  (forall x, x < 2 ^ 64 -> le_bytes 8 (RedRev64 x) = rev (le_bytes 8 x) /\ RedRev64 (RedRev64 x) = x).
Proof. exact endian_ok. Qed.
Print Assumptions C13_endian.

Theorem C31_memmove : forall m dst src len a,
  RedMemMove m dst src len a =
    if (dst <=? a) && (a <? dst + len) then m (src + (a - dst)) else m a.
Proof. exact RedMemMove_spec. Qed.
Print Assumptions C31_memmove.

Theorem C31_memcpy : forall m dst src len,
  disjoint_ranges dst src len -> forall a,
  RedMemCpy m dst src len a =
    if (dst <=? a) && (a <? dst + len) then m (src + (a - dst)) else m a.
Proof. exact RedMemCpy_spec. Qed.
Print Assumptions C31_memcpy.

Theorem C31_memset : forall m dst v len a,
  RedMemSet m dst v len a = if (dst <=? a) && (a <? dst + len) then v else m a.
Proof. exact RedMemSet_spec. Qed.
Print Assumptions C31_memset.

Theorem C31_memcmp : forall m p q len,
  RedMemCmp m p q len = lex_cmp (bytes_at m p (N.to_nat len)) (bytes_at m q (N.to_nat len)).
Proof. exact RedMemCmp_spec. Qed.
Print Assumptions C31_memcmp.

Theorem C31_strlen : forall m p s fuel,
  cstr m p s -> (length s < fuel)%nat -> RedStrLen fuel m p = Some (lenN s).
Proof. exact RedStrLen_spec. Qed.
Print Assumptions C31_strlen.

Theorem C31_strcmp : forall m p q s t fuel,
  cstr m p s -> cstr m q t -> (length s < fuel)%nat -> RedStrCmp fuel m p q = Some (lex_cmp s t).
Proof. exact RedStrCmp_spec. Qed.
Print Assumptions C31_strcmp.

Theorem C31_strncmp : forall m p q s t len,
  cstr m p s -> cstr m q t ->
  RedStrNCmp m p q len = lex_cmp (firstn (N.to_nat len) s) (firstn (N.to_nat len) t).
Proof. exact RedStrNCmp_spec. Qed.
Print Assumptions C31_strncmp.

Theorem C31_strncpy : forall m dst src len s,
  cstr m src s -> (forall j k, k < len -> j <= lenN s -> dst + k <> src + j) ->
  forall a, RedStrNCpy m dst src len a =
    if (dst <=? a) && (a <? dst + len) then nthN s (a - dst) 0 else m a.
Proof. exact RedStrNCpy_spec. Qed.
Print Assumptions C31_strncpy.

Theorem C31_namelen : forall sep m p s rest fuel,
  cstr m p (s ++ rest) -> ~ In sep s -> (rest = [] \/ exists r, rest = sep :: r) ->
  (length s < fuel)%nat -> RedNameLen fuel sep m p = Some (lenN s).
Proof. exact RedNameLen_spec. Qed.
Print Assumptions C31_namelen.
