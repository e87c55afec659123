(** Numerals, independently of Atoi.v: characters as ASCII codes. *)
From Verif Require Import Base.

(** The character c is the digit d in base b: '0'..'9', then 'A'.. or 'a'.. *)
Definition digit (b c d : N) : Prop := d < b /\ (d < 10 /\ c = 48 + d \/ 10 <= d /\ (c = 55 + d \/ c = 87 + d)).
(** The positional value of a list of digits *)
Fixpoint pos (b : N) (ds : list N) : N := match ds with [] => 0 | d :: r => d * b ^ N.of_nat (length r) + pos b r end.
(** The characters cs are the digits ds, at least one *)
Definition numeral (b : N) (cs ds : list N) : Prop := Forall2 (digit b) cs ds /\ ds <> [].
(** What follows a numeral does not begin with a digit (the string may end) *)
Definition ends (b : N) (rest : list N) : Prop := forall c d, hd_error rest = Some c -> ~ digit b c d.
(** The string begins with x or X *)
Definition begins_x (s : list N) : Prop := exists r, s = 120 :: r \/ s = 88 :: r.
(** 'B' or 'b' *)
Definition letter_b (c : N) : Prop := c = 66 \/ c = 98.
