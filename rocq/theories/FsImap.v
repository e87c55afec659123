(** Model of core/driver/imap.c (allocation map front end). *)
From Verif Require Import Base FsState.

Inductive allocstate := AFREE | FREE | USED | NEW.

Section Imap.
Variable g : cfg.

(** imap.c:52-86 RedImapBlockGet; [working] selects gpRedCoreVol->bCurMR or the other one. *)
Definition RedImapBlockGet (working : bool) (b : N) : M st bool := fun s =>
  if (b <? ITAB g) || (BC g <=? b) then (Err EINVAL, s)
  else (Ok (if working then cur s b else com s b), s).

(** imapinline.c:91-127 RedImapIBlockSet on the flat bit function. *)
Definition RedImapIBlockSet (b : N) (al : bool) : M st unit := fun s =>
  if Bool.eqb (cur s b) al then critical EFUBAR s
  else (Ok tt, set_w (mset_bits (upd (m_bits (s_w s)) b al) (s_w s)) s).

(** imap.c:151 RedBufferDiscardRange of a freed block: if its buffer was dirty the stored
    contents are lost and the block holds whatever is on the media.  A buffer of a
    committed block is never dirty (theorem: [s_wr] and [com] are disjoint), so its
    contents stay.  The ghost [s_wr] counts the block as written: its contents are no longer
    known to be those of the last transaction point. *)
Definition discard_block (b : N) (s : st) : st :=
  if com s b then s else dk_write b BJunk s.

(** imap.c:106-193 RedImapBlockSet *)
Definition RedImapBlockSet (b : N) (al : bool) : M st unit := fun s =>
  if (b <? ITAB g) || (BC g <=? b) then (Err EINVAL, s)
  else if (FA g <=? b) && ((al && (m_free (s_w s) =? 0)) ||
                           (negb al && (NALLOC g <=? m_free (s_w s)))) then critical EFUBAR s
  else
    match RedImapIBlockSet b al s with
    | (Err e, s1) => (Err e, set_br true s1)
    | (Ok _, s1) =>
      let s2 := set_br true s1 in
      let s3 := if al then s2 else discard_block b s2 in
      if FA g <=? b then
        if al then (Ok tt, set_w (mset_free (m_free (s_w s3) - 1) (s_w s3)) s3)
        else if com s3 b then (Ok tt, set_afree (s_afree s3 + 1) s3)
        else (Ok tt, set_w (mset_free (m_free (s_w s3) + 1) (s_w s3)) s3)
      else (Ok tt, s3)
    end.

(** imapinline.c:144-208 RedImapIBlockFindFree, without the skip over full bytes (that the
    real scans of the inline and external imap, with the skip, find the same block is proved in PropImapE.v).
    [n] bounds the number of blocks examined. *)
Fixpoint find_free (n : nat) (b : N) (s : st) : option N :=
  match n with
  | O => None
  | S k => if negb (cur s b) && negb (com s b) then Some b
           else find_free k (if b + 1 =? BC g then FA g else b + 1) s
  end.

(** imap.c:210-268 RedImapAllocBlock *)
Definition RedImapAllocBlock : M st N := fun s =>
  if m_free (s_w s) =? 0 then (Err ENOSPC, s)
  else if (m_next (s_w s) <? FA g) || (BC g <=? m_next (s_w s)) then (Err EINVAL, s)
  else match find_free (N.to_nat (NALLOC g)) (m_next (s_w s)) s with
  | Some b =>
    let nx := if b + 1 =? BC g then FA g else b + 1 in
    let s1 := set_w (mset_next nx (s_w s)) s in
    match critical_assert (RedImapBlockSet b true) s1 with
    | (Ok _, s2) => (Ok b, s2)
    | (Err e, s2) => (Err e, s2)
    end
  | None => critical EIO s
  end.

(** imap.c:291-351 RedImapBlockState *)
Definition RedImapBlockState (b : N) : M st allocstate := fun s =>
  if (b <? ITAB g) || (BC g <=? b) then (Err EINVAL, s)
  else (Ok (match cur s b, com s b with
            | true, true => USED | true, false => NEW | false, true => AFREE | false, false => FREE end), s).
End Imap.
