(** Formatted output, independently of Printf.v: formats as sequences of items, and the text they stand for. *)
From Verif Require Import Base AtoiSpec.

(** The length modifiers h, none, l, ll; an int has 32 bits, a long and a pointer 64 *)
Inductive size := SH | SI | SL | SLL.
Definition bits (z : size) : N := match z with SH => 16 | SI => 32 | SL | SLL => 64 end.
Definition modifier (z : size) : list N := match z with SH => [104] | SI => [] | SL => [108] | SLL => [108; 108] end.
Inductive conversion := Char | Str | Ptr | Dec (z : size) | Uns (z : size) | Hex (z : size).
Definition letters (k : conversion) : list N :=
  match k with Char => [99] | Str => [115] | Ptr => [112] | Dec z => modifier z ++ [100] | Uns z => modifier z ++ [117] | Hex z => modifier z ++ [120] end.
(** No width, "*", or a decimal numeral with its digits *)
Inductive width := WNone | WStar | WNum (cs ds : list N).
Definition width_text (w : width) : list N := match w with WNone => [] | WStar => [42] | WNum cs _ => cs end.
(** A character other than %, "%%", or a conversion: left-justified or not, with an explicit fill character or not *)
Inductive item := Lit (c : N) | Percent | Conv (left_justified : bool) (fill : option N) (w : width) (k : conversion).
Definition item_text (t : item) : list N :=
  match t with
  | Lit c => [c]
  | Percent => [37; 37]
  | Conv l f w k => [37] ++ (if l then [45] else []) ++ (match f with Some c => [c] | None => [] end) ++ width_text w ++ letters k
  end.
Definition item_ok (t : item) : Prop :=
  match t with
  | Lit c => c <> 0 /\ c <> 37
  | Percent => True
  | Conv _ f w _ =>
    (f = None \/ f = Some 48 \/ f = Some 95) /\
    match w with
    | WNum cs ds => numeral 10 cs ds /\ pos 10 ds < 2 ^ 31 /\ (f = None -> hd_error cs <> Some 48)
    | _ => True
    end
  end.
Definition format_text (ts : list item) : list N := concat (map item_text ts).

Inductive argument := AnInt (z : Z) | AString (s : option (list N)).
(** cs are the digits (capital letters beyond 9) of v in base b, without leading zeros *)
Definition written (b : N) (cs : list N) (v : N) : Prop :=
  exists ds, numeral b cs ds /\ pos b ds = v /\ Forall (fun c => c < 97) cs /\ (v = 0 -> ds = [0]) /\ (v <> 0 -> hd_error ds <> Some 0).
(** The text of an argument, before any padding *)
Inductive value_text : conversion -> argument -> list N -> Prop :=
| V_char z : (0 <= z < 256)%Z -> value_text Char (AnInt z) [Z.to_N z]
| V_str s : value_text Str (AString (Some s)) s
| V_null : value_text Str (AString None) [110; 117; 108; 108]
| V_ptr z cs : (0 <= z < 2 ^ 64)%Z -> written 16 cs (Z.to_N z) -> value_text Ptr (AnInt z) cs
| V_pos q z cs : (0 <= z < 2 ^ (Z.of_N (bits q) - 1))%Z -> written 10 cs (Z.to_N z) -> value_text (Dec q) (AnInt z) cs
| V_neg q z cs : (- 2 ^ (Z.of_N (bits q) - 1) <= z < 0)%Z -> written 10 cs (Z.to_N (- z)) -> value_text (Dec q) (AnInt z) (45 :: cs)
| V_uns q z cs : (0 <= z < 2 ^ Z.of_N (bits q))%Z -> written 10 cs (Z.to_N z) -> value_text (Uns q) (AnInt z) cs
| V_hex q z cs : (0 <= z < 2 ^ Z.of_N (bits q))%Z -> written 16 cs (Z.to_N z) -> value_text (Hex q) (AnInt z) cs.
(** The width of a conversion, and the arguments left after its own *)
Inductive takes_width : width -> list argument -> N -> list argument -> Prop :=
| T_none args : takes_width WNone args 0 args
| T_num cs ds args : takes_width (WNum cs ds) args (pos 10 ds) args
| T_star z args : (- 2 ^ 31 <= z < 2 ^ 31)%Z -> takes_width WStar (AnInt z :: args) (Z.to_N z) args.
(** Padding to the width.  As the code does it, not ANSI C: characters are never padded, numbers always on the left. *)
Definition padded (k : conversion) (left_justified : bool) (fill : option N) (w : N) (t : list N) : list N :=
  let c := match fill with Some c => c | None => 32 end in
  let n := N.to_nat (w - N.of_nat (length t)) in
  match k with
  | Char => t
  | Str => if left_justified then t ++ repeat 32 n else repeat c n ++ t
  | _ => repeat c n ++ t
  end.
(** The text a format stands for with these arguments *)
Inductive renders : list item -> list argument -> list N -> Prop :=
| R_nil args : renders [] args []
| R_lit c ts args out : renders ts args out -> renders (Lit c :: ts) args (c :: out)
| R_pct ts args out : renders ts args out -> renders (Percent :: ts) args (37 :: out)
| R_conv l f w k ts args n a rest t out :
    takes_width w args n (a :: rest) -> value_text k a t -> renders ts rest out ->
    renders (Conv l f w k :: ts) args (padded k l f n t ++ out).
