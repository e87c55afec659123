(** Byte-level models of the two implementations of the allocation map:
    core/driver/imapinline.c (bitmap in the metaroot) and core/driver/imapextern.c (bitmap in
    nodes that toggle between two locations).

    The metaroot bitmaps and the node bitmaps are byte lists, accessed with the functions of
    util/bitmap.c (Bitmap.v).  [e_nd b] is what a read of block [b] through the buffer cache
    returns (C09), restricted to abEntries; signatures, CRCs and I/O errors are not modelled
    here.  [e_wr] is ghost: the blocks that were dirtied or branched to. *)
From Verif Require Import Base Bitmap Geometry.

Record imst := mkE {
  e_mr0 : list N; e_mr1 : list N;   (* gpRedCoreVol->aMR[].abEntries *)
  e_cur : bool;                     (* gpRedCoreVol->bCurMR *)
  e_nd : N -> list N;
  e_wr : list N }.

Definition e_mr (e : imst) (w : bool) : list N := if w then e_mr1 e else e_mr0 e.
Definition set_mr (w : bool) (l : list N) (e : imst) : imst :=
  if w then mkE (e_mr0 e) l (e_cur e) (e_nd e) (e_wr e) else mkE l (e_mr1 e) (e_cur e) (e_nd e) (e_wr e).
Definition store (b : N) (l : list N) (e : imst) : imst :=
  mkE (e_mr0 e) (e_mr1 e) (e_cur e) (upd (e_nd e) b l) (e_wr e ++ [b]).

(** One iteration step of a search: the next block (wrap at the end), common to
    imapinline.c:190-204 and imapextern.c:250-296. *)
Section Imap.
Variables (k : vconf) (g : geom).

Definition out_of_map (b : N) : bool := (b <? ge_itab g) || (ge_bc g <=? b).
Definition wrap (b : N) : N := if b =? ge_bc g then ge_fa g else b.
Definition skip (b : N) : N := wrap (b + N.min 8 (ge_bc g - b)).

(** * imapinline.c *)
(** imapinline.c:52-74 RedImapIBlockGet *)
Definition RedImapIBlockGet (mr : bool) (b : N) (e : imst) : res bool :=
  if negb (ge_inline g) || out_of_map b then Err EINVAL
  else Ok (RedBitGet (e_mr e mr) (b - ge_itab g)).

(** imapinline.c:89-127 RedImapIBlockSet (CRITICAL_ERROR is the error EFUBAR) *)
Definition RedImapIBlockSet (b : N) (al : bool) (e : imst) : res unit * imst :=
  if negb (ge_inline g) || out_of_map b then (Err EINVAL, e)
  else
    let o := b - ge_itab g in
    let l := e_mr e (e_cur e) in
    if Bool.eqb (RedBitGet l o) al then (Err EFUBAR, e)
    else if al then (Ok tt, set_mr (e_cur e) (RedBitSet l o) e)
    else (Ok tt, set_mr (e_cur e) (RedBitClear l o) e).

(** imapinline.c:168-205: the loop of RedImapIBlockFindFree.  [None]: still running after [n] iterations. *)
Fixpoint i_loop (n : nat) (start p : N) (e : imst) : option (res N) :=
  match n with
  | O => None
  | S m =>
    let idx := p - ge_itab g in
    let cur := e_mr e (e_cur e) in let com := e_mr e (negb (e_cur e)) in
    let next p' := if p' =? start then Some (Err ENOSPC) else i_loop m start p' e in
    if (N.land idx 7 =? 0) && (nthN cur (N.shiftr idx 3) 0 =? UINT8_MAX) then next (skip p)
    else if negb (RedBitGet cur idx) && negb (RedBitGet com idx) then Some (Ok p)
    else next (wrap (p + 1))
  end.
(** imapinline.c:142-209 RedImapIBlockFindFree *)
Definition RedImapIBlockFindFree (n : nat) (b : N) (e : imst) : option (res N) :=
  if negb (ge_inline g) || (b <? ge_fa g) || (ge_bc g <=? b) then Some (Err EINVAL) else i_loop n b b e.

(** * imapextern.c *)
(** imapextern.c:427-458 RedImapNodeBlock *)
Definition NodeBlock (mr : bool) (node : N) (e : imst) : N := RedImapNodeBlock g node (RedBitGet (e_mr e mr) node).

(** imapextern.c:400-411 ImapNodeIsBranched *)
Definition ImapNodeIsBranched (node : N) (e : imst) : bool :=
  negb (Bool.eqb (RedBitGet (e_mr0 e) node) (RedBitGet (e_mr1 e) node)).

(** imapextern.c:61-108 RedImapEBlockGet *)
Definition RedImapEBlockGet (mr : bool) (b : N) (e : imst) : res bool :=
  if ge_inline g || out_of_map b then Err EINVAL
  else
    let o := b - ge_itab g in
    let node := o / IMAPNODE_ENTRIES k in
    let rd := if Bool.eqb mr (negb (e_cur e)) && negb (ImapNodeIsBranched node e) then negb mr else mr in
    Ok (RedBitGet (e_nd e (NodeBlock rd node e)) (o mod IMAPNODE_ENTRIES k)).

(** imapextern.c:335-388 ImapNodeBranch; the result is the block of the buffer. *)
Definition ImapNodeBranch (node : N) (e : imst) : res N * imst :=
  if ge_nodes g <=? node then (Err EINVAL, e)
  else if ImapNodeIsBranched node e then
    let b := NodeBlock (e_cur e) node e in
    (Ok b, store b (e_nd e b) e)                       (* RedBufferGet(BFLAG_DIRTY) *)
  else
    let l := e_mr e (e_cur e) in
    let e1 := set_mr (e_cur e) (if RedBitGet l node then RedBitClear l node else RedBitSet l node) e in
    let bcur := NodeBlock (e_cur e1) node e1 in
    let bold := NodeBlock (negb (e_cur e1)) node e1 in
    (Ok bcur, store bcur (e_nd e1 bold) e1).           (* RedBufferGet + RedBufferBranch *)

(** imapextern.c:124-175 RedImapEBlockSet *)
Definition RedImapEBlockSet (b : N) (al : bool) (e : imst) : res unit * imst :=
  if ge_inline g || out_of_map b then (Err EINVAL, e)
  else
    let o := b - ge_itab g in
    match ImapNodeBranch (o / IMAPNODE_ENTRIES k) e with
    | (Err x, e1) => (Err x, e1)
    | (Ok blk, e1) =>
      let l := e_nd e1 blk in
      let i := o mod IMAPNODE_ENTRIES k in
      if Bool.eqb (RedBitGet l i) al then (Err EFUBAR, e1)
      else (Ok tt, store blk (if al then RedBitSet l i else RedBitClear l i) e1)
    end.

(** imapextern.c:209-298: the loop of RedImapEBlockFindFree; [prev], [pimap]: ulPrevImapNode and
    the contents of the buffer pImap. *)
Fixpoint e_loop (n : nat) (start p prev : N) (pimap : option (list N)) (e : imst) : option (res N) :=
  match n with
  | O => None
  | S m =>
    let idx := p - ge_itab g in
    let node := idx / IMAPNODE_ENTRIES k in
    let i := idx mod IMAPNODE_ENTRIES k in
    let pimap1 := if match pimap with Some _ => negb (node =? prev) | None => false end then None else pimap in
    let '(prev', l) := match pimap1 with
                       | Some l => (prev, l)
                       | None => (node, e_nd e (NodeBlock (e_cur e) node e))
                       end in
    let next p' pm := if p' =? start then Some (Err ENOSPC) else e_loop m start p' prev' pm e in
    if (N.land i 7 =? 0) && (nthN l (N.shiftr i 3) 0 =? UINT8_MAX) then next (skip p) (Some l)
    else if negb (RedBitGet l i) then
      let c := e_nd e (NodeBlock (negb (e_cur e)) node e) in
      if negb (RedBitGet c i) then Some (Ok p) else next (wrap (p + 1)) None
    else next (wrap (p + 1)) (Some l)
  end.
(** imapextern.c:190-313 RedImapEBlockFindFree *)
Definition RedImapEBlockFindFree (n : nat) (b : N) (e : imst) : option (res N) :=
  if ge_inline g || (b <? ge_fa g) || (ge_bc g <=? b) then Some (Err EINVAL) else e_loop n b b 0 None e.

(** * imap.c: the front end selects the implementation (imap.c:69-83, 135-150, 229-243) *)
Definition ImapGet (mr : bool) (b : N) (e : imst) : res bool :=
  if ge_inline g then RedImapIBlockGet mr b e else RedImapEBlockGet mr b e.
Definition ImapSet (b : N) (al : bool) (e : imst) : res unit * imst :=
  if ge_inline g then RedImapIBlockSet b al e else RedImapEBlockSet b al e.
Definition ImapFindFree (n : nat) (b : N) (e : imst) : option (res N) :=
  if ge_inline g then RedImapIBlockFindFree n b e else RedImapEBlockFindFree n b e.

(** volume.c:591-604 (RedVolTransact): the two metaroot buffers exchange places. *)
Definition ImapCommit (e : imst) : imst :=
  let l := e_mr e (e_cur e) in
  mkE l l (negb (e_cur e)) (e_nd e) [].

(** volume.c:617-652 (RedVolRollback, also the mount after a power loss): the committed metaroot is read again and
    copied to the other buffer (volume.c:427-429); all buffers were discarded, so that a node
    location that the committed metaroot does not point to may hold anything ([junk]). *)
Definition ImapRollback (junk : N -> list N) (e : imst) : imst :=
  let l := e_mr e (negb (e_cur e)) in
  mkE l l (e_cur e)
    (fun b => if existsb (fun n => b =? NodeBlock (negb (e_cur e)) n e) (map N.of_nat (seq 0 (N.to_nat (ge_nodes g))))
              then e_nd e b else junk b) [].

End Imap.
