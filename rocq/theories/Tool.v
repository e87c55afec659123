(** Model of tools/toolcmn.c. *)
From Verif Require Import Base.
From Coq Require Import List Arith. Import ListNotations.
Open Scope N_scope.

(** strtoul(s, &end, 10) of the C library, with W bits in an unsigned long: the value, the string at end, errno = ERANGE *)
Definition isspace (c : N) : bool := (c =? 32) || ((9 <=? c) && (c <=? 13)).
Definition isdigit (c : N) : bool := (48 <=? c) && (c <=? 57).
Fixpoint skip_white (s : list N) : list N := match s with c :: r => if isspace c then skip_white r else s | [] => [] end.
Fixpoint number (acc : N) (s : list N) : N * list N :=
  match s with c :: r => if isdigit c then number (acc * 10 + (c - 48)) r else (acc, s) | [] => (acc, []) end.
Definition strtoul (W : N) (s : list N) : N * list N * bool :=
  let s1 := skip_white s in
  let '(neg, s2) := match s1 with c :: r => if c =? 45 then (true, r) else if c =? 43 then (false, r) else (false, s1) | [] => (false, s1) end in
  match s2 with
  | c :: _ =>
    if isdigit c then
      let '(m, e) := number 0 s2 in
      if 2 ^ W <=? m then (2 ^ W - 1, e, true)
      else ((if neg : bool then (2 ^ W - m) mod 2 ^ W else m), e, false)
    else (0, s, false)
  | [] => (0, s, false)
  end.

Definition eqs (a b : list N) : bool := if list_eq_dec N.eq_dec a b then true else false.
(** tools/toolcmn.c:72-78: the index of the first matching path prefix, or the number of volumes *)
Fixpoint find_prefix (i : N) (prefixes : list (list N)) (s : list N) : N :=
  match prefixes with [] => i | p :: r => if eqs p s then i else find_prefix (i + 1) r s end.
(** tools/toolcmn.c:52-97 RedFindVolumeNumber; posix: REDCONF_API_POSIX; prefixes: gaRedVolConf[].pszPathPrefix *)
Definition RedFindVolumeNumber (W : N) (posix : bool) (prefixes : list (list N)) (s : list N) : N :=
  let count := N.of_nat (length prefixes) in
  let '(n, e, erange) := strtoul W s in
  let bVolNum := if negb erange && negb (n =? 2 ^ W - 1) && (match e with [] => true | _ => false end) && (n <? count) then n mod 256 else count in
  if posix then let bIndex := find_prefix 0 prefixes s in if bIndex <? count then bIndex else bVolNum else bVolNum.

(** getchar: None is EOF *)
Definition getchar (inp : list N) : option N * list N := match inp with [] => (None, []) | c :: r => (Some c, r) end.
(** tools/toolcmn.c:122-129: the rest of the line; None: still running after so many turns *)
Fixpoint burn (fuel : nat) (c : option N) (inp : list N) : option (list N) :=
  match fuel with
  | O => None
  | S k => if match c with Some x => x =? 10 | None => false end then Some inp else let '(c, r) := getchar inp in burn k c r
  end.
(** tools/toolcmn.c:107-141 RedConfirmOperation, on what is typed; None: still running after so many turns *)
Fixpoint RedConfirmOperation (fuel : nat) (inp : list N) : option bool :=
  match fuel with
  | O => None
  | S k =>
    let '(iAnswer, r) := getchar inp in
    match burn fuel iAnswer r with
    | None => None
    | Some r =>
      match iAnswer with
      | Some a => if (a =? 121) || (a =? 89) || (a =? 110) || (a =? 78) then Some ((a =? 121) || (a =? 89)) else RedConfirmOperation k r
      | None => RedConfirmOperation k r
      end
    end
  end.
