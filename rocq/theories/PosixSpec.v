(** Specification of paths, independent of the code that walks them.

    A path is a C string: the bytes up to the first zero byte.  Separators split it into components;
    empty components (leading, repeated and trailing separators) do not matter. *)
From Verif Require Import Base Count FsState FsDir FsSpec FsMach FsVolume FsReach PropFs PropNs.

Fixpoint cstr (s : list N) : list N := match s with [] => [] | c :: s' => if c =? 0 then [] else c :: cstr s' end.
Fixpoint split (sep : N) (s : list N) : list (list N) :=
  match s with
  | [] => [[]]
  | c :: s' => if c =? sep then [] :: split sep s' else match split sep s' with x :: l => (c :: x) :: l | [] => [[c]] end
  end.
Definition nonempty (x : list N) : bool := match x with [] => false | _ => true end.
Definition comps (sep : N) (s : list N) : list name := filter nonempty (split sep (cstr s)).

(** [a] is [b] or continues after [b] with a separator: [b] consists of whole components of [a]. *)
Definition whole_prefix (sep : N) (b a : list N) : Prop := a = b \/ exists t, a = b ++ sep :: t.

Definition dot1 : name := [DOT].
Definition dot2 : name := [DOT; DOT].

Section Spec.
Variable g : cfg.
Variable atom : bool.
Variable MM TM : N.
Notation ask := (ask g atom MM TM).
(** One component, from the inode [i]: "." is [i] itself, ".." its parent (the root for the root);
    both require a directory.  Other names are looked up. *)
Definition rstep (v : vol) (i : N) (c : name) : res N :=
  if list_eq_dec N.eq_dec c dot1 then
    match ask v (CStat i) with Ok (OStat (d, _, _, _)) => if d then Ok i else Err ENOTDIR | Err e => Err e | _ => Err EFUBAR end
  else if list_eq_dec N.eq_dec c dot2 then
    match ask v (CDirParent i) with Ok (ONum p) => Ok (if i =? ROOT then ROOT else p) | Err e => Err e | _ => Err EFUBAR end
  else match ask v (CLookup i c) with Ok (ONum j) => Ok j | Err e => Err e | _ => Err EFUBAR end.
(** All components in turn. *)
Fixpoint resolve (v : vol) (i : N) (l : list name) : res N :=
  match l with [] => Ok i | c :: l' => match rstep v i c with Ok j => resolve v j l' | Err e => Err e end end.
(** A path that names a directory entry: all components but the last are resolved.  The result is the
    directory and the last component; or the inode reached, without a name, if there are no
    components or the last one is "." or "..". *)
Definition resolve_parent (v : vol) (i : N) (l : list name) : res (N * option name) :=
  match rev l with
  | [] => Ok (i, None)
  | c :: ri =>
    match resolve v i (rev ri) with
    | Err e => Err e
    | Ok d => if list_eq_dec N.eq_dec c dot1 then match rstep v d c with Ok t => Ok (t, None) | Err e => Err e end
              else if list_eq_dec N.eq_dec c dot2 then match rstep v d c with Ok t => Ok (t, None) | Err e => Err e end
              else Ok (d, Some c)
    end
  end.
(** Nothing is found on a volume that is not mounted. *)
Definition look (v : vol) (i : N) (l : list name) : res N := if v_mnt v then resolve v i l else Err EINVAL.
(** The directory and the name; the error for a path without a last name is EINVAL, except for the
    root directory itself. *)
Definition look_name (rooterr : errno) (v : vol) (i : N) (l : list name) : res (N * name) :=
  if v_mnt v then
    match resolve_parent v i l with
    | Err e => Err e
    | Ok (d, Some c) => Ok (d, c)
    | Ok (t, None) => Err (if t =? ROOT then rooterr else EINVAL)
    end
  else Err EINVAL.
End Spec.

(** The volume of a path: the one with the longest configured prefix that consists of whole
    components of the path; failing that, the one with the empty prefix. *)
Definition picks (NV sep : N) (prefix : N -> list N) (path : list N) (n : N) : Prop :=
  n < NV /\
  (prefix n <> [] /\ whole_prefix sep (prefix n) (cstr path) /\
     (forall m, m < NV -> whole_prefix sep (prefix m) (cstr path) -> m = n \/ lenN (prefix m) < lenN (prefix n)) \/
   prefix n = [] /\ forall m, m < NV -> prefix m <> [] -> ~ whole_prefix sep (prefix m) (cstr path)).
Definition picks_none (NV sep : N) (prefix : N -> list N) (path : list N) : Prop :=
  forall m, m < NV -> prefix m <> [] /\ ~ whole_prefix sep (prefix m) (cstr path).
