(** Model of tools/getopt.c (FreeBSD's getopt).  A string is the list of its characters before the NUL. *)
From Verif Require Import Base GetoptSpec.
From Coq Require Import List Arith. Import ListNotations.
Open Scope nat_scope.

(** tools/getopt.c:113-126 gcd *)
Fixpoint gcd (fuel a b : nat) : nat :=
  match fuel with O => b | S k => let c := a mod b in if c =? 0 then b else gcd k b c end.
Fixpoint set_nth {A} (l : list A) (i : nat) (x : A) : list A :=
  match l, i with [], _ => [] | _ :: r, O => x :: r | y :: r, S i => y :: set_nth r i x end.
(** tools/getopt.c:151-159: the inner loop of permute_args, k turns left *)
Fixpoint cycle (k pos cstart mid nnonopts nopts : nat) (argv : list (list N)) : list (list N) :=
  match k with
  | O => argv
  | S k =>
    let pos := if mid <=? pos then pos - nnonopts else pos + nopts in
    let swap := nth pos argv [] in
    let argv := set_nth argv pos (nth cstart argv []) in
    let argv := set_nth argv cstart swap in
    cycle k pos cstart mid nnonopts nopts argv
  end.
(** tools/getopt.c:148-160: the outer loop, from i on *)
Fixpoint cycles (k i cyclelen mid nnonopts nopts : nat) (argv : list (list N)) : list (list N) :=
  match k with
  | O => argv
  | S k => cycles k (S i) cyclelen mid nnonopts nopts (cycle cyclelen (mid + i) (mid + i) mid nnonopts nopts argv)
  end.
(** tools/getopt.c:133-161 permute_args *)
Definition permute_args (start mid end_ : nat) (argv : list (list N)) : list (list N) :=
  let nnonopts := mid - start in
  let nopts := end_ - mid in
  let ncycle := gcd (S nopts) nnonopts nopts in
  let cyclelen := (end_ - start) / ncycle in
  cycles ncycle 0 cyclelen mid nnonopts nopts argv.

(** include/redgetopt.h:49-62 REDOPTION is GetoptSpec.longopt *)
(** tools/getopt.c:65-69, 94-98: the global variables (red_opterr and dash_prefix only matter for what is printed); place is
    the rest of the word it points to; nonopt_start and nonopt_end are None for -1 *)
Record gst := mkG { argv : list (list N); optind : nat; place : list N; ns : option nat; ne : option nat;
                    optarg : option (list N); optopt : Z; optreset : bool }.
(** The value returned, *idx and the flag variable assigned with its value *)
Record gres := mkR { ret : Z; ridx : option nat; rset : option (nat * Z) }.
Definition plain_ret (z : Z) : gres := mkR z None None.
Definition BADCH : Z := 63.
(** tools/getopt.c:79 BADARG *)
Definition BADARG (options : list N) : Z := match options with c :: _ => if (c =? 58)%N then 58%Z else 63%Z | [] => 63%Z end.
Definition eqs (a b : list N) : bool := if list_eq_dec N.eq_dec a b then true else false.
(** tools/getopt.c:204-232: the loop looking for a long option; exact match, match, second_partial_match *)
Fixpoint find_long (i : nat) (longs : list longopt) (cur : list N) (short_too : bool) (mt : option (nat * longopt)) (second : bool)
  : bool * option (nat * longopt) * bool :=
  match longs with
  | [] => (false, mt, second)
  | o :: r =>
    if negb (eqs (firstn (length cur) (o_name o)) cur) then find_long (S i) r cur short_too mt second
    else if length (o_name o) =? length cur then (true, Some (i, o), second)
    else if short_too && (length cur =? 1) then find_long (S i) r cur short_too mt second
    else match mt with
    | None => find_long (S i) r cur short_too (Some (i, o)) second
    | Some (_, m) =>
      let differs := negb (o_has o =? o_has m) || negb (match o_flag o, o_flag m with Some x, Some y => x =? y | None, None => true | _, _ => false end)
                     || negb (o_val o =? o_val m)%Z in
      find_long (S i) r cur short_too mt (second || differs)
    end
  end.
(** The part before "=" and what follows it, if there is one: tools/getopt.c:197-202 *)
Fixpoint split_eq (s : list N) : list N * option (list N) :=
  match s with
  | [] => ([], None)
  | c :: r => if (c =? 61)%N then ([], Some r) else let '(a, b) := split_eq r in (c :: a, b)
  end.
Definition set_opt (s : gst) (i : nat) (p : list N) (a : option (list N)) (o : Z) : gst :=
  mkG (argv s) i p (ns s) (ne s) a o (optreset s).
(** tools/getopt.c:168-312 parse_long_options (without FLAG_LONGONLY, which no public function passes) *)
Definition parse_long_options (options : list N) (longs : list longopt) (short_too : bool) (s : gst) : gst * gres :=
  let optind1 := S (optind s) in
  let '(cur, has_equal) := split_eq (place s) in
  let '(exact, mt, second) := find_long 0 longs cur short_too None false in
  if negb exact && second then (set_opt s optind1 (place s) (optarg s) 0%Z, plain_ret BADCH)
  else match mt with
  | Some (i, o) =>
    let opt_err := match o_flag o with None => o_val o | Some _ => 0%Z end in
    if match has_equal with Some _ => o_has o =? 0 | None => false end then (set_opt s optind1 (place s) (optarg s) opt_err, plain_ret BADCH)
    else
      let '(arg, ind) :=
        if (o_has o =? 1) || (o_has o =? 2) then
          match has_equal with
          | Some a => (Some a, optind1)
          | None => if o_has o =? 1 then (nth_error (argv s) optind1, S optind1) else (optarg s, optind1)
          end
        else (optarg s, optind1) in
      match arg, o_has o =? 1 with
      | None, true => (set_opt s (ind - 1) (place s) None opt_err, plain_ret (BADARG options))
      | _, _ =>
        (set_opt s ind (place s) arg (optopt s),
         match o_flag o with Some f => mkR 0 (Some i) (Some (f, o_val o)) | None => mkR (o_val o) (Some i) None end)
      end
  | None =>
    if short_too then (s, plain_ret (-1))
    else (set_opt s optind1 (place s) (optarg s) 0%Z, plain_ret BADCH)
  end.

(** The non-options skipped are moved behind the options: tools/getopt.c:353-358, 413-417 *)
Definition permute_back (s : gst) : gst :=
  match ns s, ne s with
  | Some a, Some e => mkG (permute_args a e (optind s) (argv s)) (optind s - (e - a)) (place s) None None (optarg s) (optopt s) (optreset s)
  | _, _ => mkG (argv s) (optind s) (place s) None None (optarg s) (optopt s) (optreset s)
  end.
(** tools/getopt.c:348-420: update the scanning pointer; inl: the function returns, inr: there is an option at place.
    [permute], [allargs]: FLAG_PERMUTE, FLAG_ALLARGS *)
Fixpoint scan (fuel : nat) (permute allargs : bool) (s : gst) : (gst * gres) + gst :=
  match optreset s, place s with
  | false, _ :: _ => inr s
  | _, _ =>
    match fuel with
    | O => inl (s, plain_ret (-1)) (* never: every turn takes a word *)
    | S k =>
      match nth_error (argv s) (optind s) with
      | None =>
        let s := mkG (argv s) (optind s) [] (ns s) (ne s) (optarg s) (optopt s) false in
        let s := match ne s, ns s with
                 | None, Some a => mkG (argv s) a [] None None (optarg s) (optopt s) false
                 | _, _ => permute_back s end in
        inl (s, plain_ret (-1))
      | Some w =>
        let option := match w with c :: _ :: _ => (c =? 45)%N | _ => false end in
        if negb option then
          if allargs then inl (mkG (argv s) (S (optind s)) [] (ns s) (ne s) (Some w) (optopt s) false, plain_ret 1)
          else if negb permute then inl (mkG (argv s) (optind s) [] (ns s) (ne s) (optarg s) (optopt s) false, plain_ret (-1))
          else
            let s := match ns s, ne s with
                     | None, _ => mkG (argv s) (optind s) [] (Some (optind s)) (ne s) (optarg s) (optopt s) false
                     | Some a, Some e => mkG (permute_args a e (optind s) (argv s)) (optind s) [] (Some (optind s - (e - a))) None (optarg s) (optopt s) false
                     | Some a, None => mkG (argv s) (optind s) [] (Some a) None (optarg s) (optopt s) false
                     end in
            scan k permute allargs (mkG (argv s) (S (optind s)) [] (ns s) (ne s) (optarg s) (optopt s) false)
        else
          let ne1 := match ns s, ne s with Some _, None => Some (optind s) | _, e => e end in
          let p := tl w in
          if eqs p [45%N] then
            let s := mkG (argv s) (S (optind s)) [] (ns s) ne1 (optarg s) (optopt s) false in
            inl (permute_back s, plain_ret (-1))
          else inr (mkG (argv s) (optind s) p (ns s) ne1 (optarg s) (optopt s) false)
      end
    end
  end.
(** strchr: what follows the first c *)
Fixpoint strchr (s : list N) (c : N) : option (list N) :=
  match s with [] => None | x :: r => if (x =? c)%N then Some r else strchr r c end.
(** tools/getopt.c:447-503: a short option at place *)
Definition short_option (options : list N) (longs : option (list longopt)) (s : gst) : gst * gres :=
  match place s with
  | [] => (s, plain_ret (-1)) (* place is never empty here *)
  | c :: r =>
    let found := if (c =? 58)%N || ((c =? 45)%N && negb (eqs r [])) then None else strchr options c in
    match found with
    | None =>
      if (c =? 45)%N && eqs r [] then (set_opt s (optind s) r (optarg s) (optopt s), plain_ret (-1))
      else (set_opt s (match r with [] => S (optind s) | _ => optind s end) r (optarg s) (Z.of_N c), plain_ret BADCH)
    | Some oli =>
      match longs, (c =? 87)%N && (match oli with x :: _ => (x =? 59)%N | [] => false end) with
      | Some ls, true =>
        match r with
        | [] =>
          match nth_error (argv s) (S (optind s)) with
          | None => (set_opt s (S (optind s)) [] (optarg s) (Z.of_N c), plain_ret (BADARG options))
          | Some w =>
            let '(s, rv) := parse_long_options options ls false (set_opt s (S (optind s)) w (optarg s) (optopt s)) in
            (set_opt s (optind s) [] (optarg s) (optopt s), rv)
          end
        | _ =>
          let '(s, rv) := parse_long_options options ls false (set_opt s (optind s) r (optarg s) (optopt s)) in
          (set_opt s (optind s) [] (optarg s) (optopt s), rv)
        end
      | _, _ =>
        let colon := fun l : list N => match l with x :: _ => (x =? 58)%N | [] => false end in
        if negb (colon oli) then
          (set_opt s (match r with [] => S (optind s) | _ => optind s end) r (optarg s) (optopt s), plain_ret (Z.of_N c))
        else match r with
        | _ :: _ => (set_opt s (S (optind s)) [] (Some r) (optopt s), plain_ret (Z.of_N c))
        | [] =>
          if negb (colon (tl oli)) then
            match nth_error (argv s) (S (optind s)) with
            | None => (set_opt s (S (optind s)) [] None (Z.of_N c), plain_ret (BADARG options))
            | Some w => (set_opt s (S (S (optind s))) [] (Some w) (optopt s), plain_ret (Z.of_N c))
            end
          else (set_opt s (S (optind s)) [] None (optopt s), plain_ret (Z.of_N c))
        end
      end
    end
  end.
(** tools/getopt.c:318-504 getopt_internal with FLAG_PERMUTE; nargc is the length of argv.  The test "place != nargv[red_optind]"
    in line 429 is always true (place is behind the "-"). *)
Definition getopt_internal (options : list N) (longs : option (list longopt)) (s : gst) : gst * gres :=
  let s := if optind s =? 0 then mkG (argv s) 1 (place s) (ns s) (ne s) (optarg s) (optopt s) true else s in
  let c0 := hd 0%N options in
  let allargs := (c0 =? 45)%N in
  let permute := negb (c0 =? 43)%N in
  let options := if (c0 =? 43)%N || (c0 =? 45)%N then tl options else options in
  let s := if optreset s then mkG (argv s) (optind s) (place s) None None None (optopt s) true
           else mkG (argv s) (optind s) (place s) (ns s) (ne s) None (optopt s) false in
  match scan (S (length (argv s))) permute allargs s with
  | inl r => r
  | inr s =>
    match longs, place s with
    | Some ls, c :: r =>
      if (c =? 45)%N then
        let '(s1, rv) := parse_long_options options ls false (set_opt s (optind s) r (optarg s) (optopt s)) in
        if (ret rv =? -1)%Z then short_option options longs s1 else (set_opt s1 (optind s1) [] (optarg s1) (optopt s1), rv)
      else short_option options longs s
    | _, _ => short_option options longs s
    end
  end.
(** tools/getopt.c:520-526 RedGetopt *)
Definition RedGetopt (options : list N) (s : gst) : gst * gres := getopt_internal options None s.
(** tools/getopt.c:549-557 RedGetoptLong *)
Definition RedGetoptLong (options : list N) (longs : list longopt) (s : gst) : gst * gres := getopt_internal options (Some longs) s.
(** tools/getopt.c:566-579 RedGetoptReset, with the argument vector of the following calls *)
Definition RedGetoptReset (args : list (list N)) : gst := mkG args 1 [] None None None 63 false.
