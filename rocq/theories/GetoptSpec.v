(** Command lines, independently of Getopt.v: what a list of words means to a program with given options.
    A string is the list of its characters. *)
From Verif Require Import Base.
From Coq Require Import List Arith. Import ListNotations.
Open Scope nat_scope.

(** A long option as the caller declares it (REDOPTION): o_has 0, 1, 2: without, with, with optional argument; o_flag: the
    variable to assign o_val to, if any; otherwise o_val is returned *)
Record longopt := mkL { o_name : list N; o_has : nat; o_flag : option nat; o_val : Z }.

Inductive takes := NoArg | Required | Optional.
Definition begins (c : N) (s : list N) : Prop := exists r, s = c :: r.
(** In the string of option characters, c stands for an option: followed by no colon, one or two (and not by the ";" of "W;") *)
Definition declares (options : list N) (c : N) (t : takes) : Prop :=
  c <> 58%N /\ c <> 45%N /\
  exists x y, options = x ++ c :: y /\ ~ In c x /\
    match t with
    | NoArg => ~ begins 58 y /\ (c = 87%N -> ~ begins 59 y)
    | Required => exists z, y = 58%N :: z /\ ~ begins 58 z
    | Optional => exists z, y = 58%N :: 58%N :: z
    end.
(** nm stands for the i-th long option: it is its name and not that of an earlier one, or it is the beginning of its name and of
    no other; and the value of the option is not the one that ends the options *)
Definition named (longs : option (list longopt)) (nm : list N) (i : nat) (o : longopt) : Prop :=
  exists ls, longs = Some ls /\ nth_error ls i = Some o /\ nm <> [] /\ ~ In 61%N nm /\
    (o_name o = nm /\ (forall j p, j < i -> nth_error ls j = Some p -> o_name p <> nm) \/
     (exists more, o_name o = nm ++ more) /\ (forall j p, j <> i -> nth_error ls j = Some p -> forall more, o_name p <> nm ++ more)) /\
    (o_flag o = None -> o_val o <> (-1)%Z).

(** nm is the name of no long option, nor the beginning of one *)
Definition nameless (longs : option (list longopt)) (nm : list N) : Prop :=
  exists ls, longs = Some ls /\ nm <> [] /\ ~ In 61%N nm /\ forall j p, nth_error ls j = Some p -> forall more, o_name p <> nm ++ more.

(** nm is no name, but the beginning of the names of two options that do different things *)
Definition ambiguous (longs : option (list longopt)) (nm : list N) : Prop :=
  exists ls, longs = Some ls /\ nm <> [] /\ ~ In 61%N nm /\ (forall k q, nth_error ls k = Some q -> o_name q <> nm) /\
    exists i j o p x y, nth_error ls i = Some o /\ nth_error ls j = Some p /\ o_name o = nm ++ x /\ o_name p = nm ++ y /\
      (o_has o, o_flag o, o_val o) <> (o_has p, o_flag p, o_val p).

(** What a call reports: the value returned, the argument, the index of the long option, the variable set and its value *)
Record event := mkE { e_ret : Z; e_arg : option (list N); e_index : option nat; e_set : option (nat * Z) }.
Definition short_event (c : N) (a : option (list N)) : event := mkE (Z.of_N c) a None None.
Definition long_event (i : nat) (o : longopt) (a : option (list N)) : event :=
  match o_flag o with None => mkE (o_val o) a (Some i) None | Some f => mkE 0 a (Some i) (Some (f, o_val o)) end.
(** c is an option without argument, or is not an option *)
Definition simple (options : list N) (c : N) : Prop := declares options c NoArg \/ c <> 45%N /\ (~ In c options \/ c = 58%N).
(** The event of a simple character: itself, or "?" (63) if it is not an option *)
Definition flag_event (options : list N) (c : N) : event :=
  if in_dec N.eq_dec c options then if (c =? 58)%N then mkE 63 None None None else short_event c None else mkE 63 None None None.
Definition flag_events (options cs : list N) : list event := map (flag_event options) cs.

(** One word (or two) of options, and the events it stands for: "-abc", "-abcARG", "-abc ARG", "--name", "--name=ARG", "--name ARG" *)
Inductive group (options : list N) (longs : option (list longopt)) : list (list N) -> list event -> Prop :=
| G_flags cs : cs <> [] -> Forall (simple options) cs -> group options longs [45%N :: cs] (flag_events options cs)
| G_attached cs c a : Forall (simple options) cs -> declares options c Required \/ declares options c Optional -> a <> [] ->
    group options longs [45%N :: cs ++ c :: a] (flag_events options cs ++ [short_event c (Some a)])
| G_separate cs c a : Forall (simple options) cs -> declares options c Required ->
    group options longs [45%N :: cs ++ [c]; a] (flag_events options cs ++ [short_event c (Some a)])
| G_optional cs c : Forall (simple options) cs -> declares options c Optional ->
    group options longs [45%N :: cs ++ [c]] (flag_events options cs ++ [short_event c None])
| L_none nm i o : named longs nm i o -> o_has o = 0 \/ o_has o = 2 -> group options longs [45%N :: 45%N :: nm] [long_event i o None]
| L_equal nm i o a : named longs nm i o -> o_has o = 1 \/ o_has o = 2 -> group options longs [45%N :: 45%N :: nm ++ 61%N :: a] [long_event i o (Some a)]
| L_separate nm i o a : named longs nm i o -> o_has o = 1 -> group options longs [45%N :: 45%N :: nm; a] [long_event i o (Some a)]
| L_unknown nm : nameless longs nm -> group options longs [45%N :: 45%N :: nm] [mkE 63 None None None]
| L_unknown_equal nm a : nameless longs nm -> group options longs [45%N :: 45%N :: nm ++ 61%N :: a] [mkE 63 None None None]
| L_ambiguous nm : ambiguous longs nm -> group options longs [45%N :: 45%N :: nm] [mkE 63 None None None]
| L_ambiguous_equal nm a : ambiguous longs nm -> group options longs [45%N :: 45%N :: nm ++ 61%N :: a] [mkE 63 None None None]
| L_unwanted nm i o a : named longs nm i o -> o_has o = 0 -> group options longs [45%N :: 45%N :: nm ++ 61%N :: a] [mkE 63 None None None].
(** The last word, if its argument is missing: reported as ":" (58) if the option characters begin with one, else as "?" *)
Definition missing (options : list N) : event := mkE (if (hd 0%N options =? 58)%N then 58 else 63) None None None.
Inductive incomplete (options : list N) (longs : option (list longopt)) : list (list N) -> list event -> Prop :=
| I_short cs c : Forall (simple options) cs -> declares options c Required ->
    incomplete options longs [45%N :: cs ++ [c]] (flag_events options cs ++ [missing options])
| I_long nm i o : named longs nm i o -> o_has o = 1 -> incomplete options longs [45%N :: 45%N :: nm] [missing options].
(** Not an option: "-" or a word that does not begin with "-" *)
Definition operand (w : list N) : Prop := w = [45%N] \/ hd_error w <> Some 45%N.
(** A command line: its words, the events, the words that are options (with "--", which ends them), the operands *)
Inductive line (options : list N) (longs : option (list longopt)) : list (list N) -> list event -> list (list N) -> list (list N) -> Prop :=
| Ln_end : line options longs [] [] [] []
| Ln_dashes rest : line options longs ([45%N; 45%N] :: rest) [] [[45%N; 45%N]] rest
| Ln_incomplete g gev : incomplete options longs g gev -> line options longs g gev g []
| Ln_operand w ws ev os ps : operand w -> line options longs ws ev os ps -> line options longs (w :: ws) ev os (w :: ps)
| Ln_group g gev ws ev os ps : group options longs g gev -> line options longs ws ev os ps -> line options longs (g ++ ws) (gev ++ ev) (g ++ os) ps.
