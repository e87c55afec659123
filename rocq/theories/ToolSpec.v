(** Arguments and answers of the host tools, independently of Tool.v.  A string is the list of its characters. *)
From Verif Require Import Base.
From Coq Require Import List Arith. Import ListNotations.
Open Scope N_scope.

Definition white (c : N) : Prop := c = 32 \/ 9 <= c <= 13.
Definition digit (c : N) : Prop := 48 <= c <= 57.
(** The number written by decimal digits *)
Fixpoint value (ds : list N) : N := match ds with [] => 0 | d :: r => (d - 48) * 10 ^ N.of_nat (length r) + value r end.
(** What strtoul takes as a number of W bits in base 10 (C99 7.20.1.4), all of s: white space, a sign, digits; "-" negates in unsigned arithmetic *)
Definition unsigned_numeral (W : N) (s : list N) (n : N) : Prop :=
  exists ws sg ds, s = ws ++ sg ++ ds /\ Forall white ws /\ Forall digit ds /\ ds <> [] /\ value ds < 2 ^ W /\
    ((sg = [] \/ sg = [43]) /\ n = value ds \/ sg = [45] /\ n = (2 ^ W - value ds) mod 2 ^ W).
(** Volume v has the path prefix s, and is the first that has it *)
Definition has_prefix (prefixes : list (list N)) (s : list N) (v : nat) : Prop :=
  nth_error prefixes v = Some s /\ forall j, (j < v)%nat -> nth_error prefixes j <> Some s.

(** The answer to a question, in the characters typed: lines are refused until one begins with y, Y, n or N *)
Definition yes (c : N) : Prop := c = 121 \/ c = 89.
Definition no (c : N) : Prop := c = 110 \/ c = 78.
Definition refused (l : list N) : Prop := ~ In 10 l /\ forall c, hd_error l = Some c -> ~ yes c /\ ~ no c.
Definition answers (typed : list N) (b : bool) : Prop :=
  exists ls c l rest, typed = concat (map (fun l => l ++ [10]) ls) ++ (c :: l) ++ [10] ++ rest /\
    Forall refused ls /\ ~ In 10 l /\ (yes c /\ b = true \/ no c /\ b = false).
