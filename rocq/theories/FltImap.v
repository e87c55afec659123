(** FsImap.v with device failures, see FltMonad.v. *)
From Verif Require Import Base FsState FsImap FsInode FsData FsDir FsCore FltMonad.

Section Imap.
Variable g : cfg.

(** imap.c:52-86 RedImapBlockGet; [working] selects gpRedCoreVol->bCurMR or the other one. *)
Definition RedImapBlockGet (working : bool) (b : N) : MF st bool := io (FsImap.RedImapBlockGet g working b).

(** imapinline.c:91-127 RedImapIBlockSet on the flat bit function. *)
Definition RedImapIBlockSet (b : N) (al : bool) : MF st unit := io (FsImap.RedImapIBlockSet b al).

(** imap.c:106-193 RedImapBlockSet *)
Definition RedImapBlockSet (b : N) (al : bool) : MF st unit := fun s =>
  (if (b <? ITAB g) || (BC g <=? b) then fail EINVAL
   else if (FA g <=? b) && ((al && (m_free (s_w s) =? 0)) ||
                            (negb al && (NALLOC g <=? m_free (s_w s)))) then critical EFUBAR
   else
     r <- attempt (RedImapIBlockSet b al) ;;
     pure (FsState.modify (set_br true)) ;;;
     match r with
     | Err e => fail e
     | Ok _ =>
       (if al then ret tt else pure (FsState.modify (discard_block b))) ;;;
       if FA g <=? b then
         if al then pure (FsState.modify (fun s => set_w (mset_free (m_free (s_w s) - 1) (s_w s)) s))
         else w <- critical_assert (RedImapBlockGet false b) ;;
              if w : bool then pure (FsState.modify (fun s => set_afree (s_afree s + 1) s))
              else pure (FsState.modify (fun s => set_w (mset_free (m_free (s_w s) + 1) (s_w s)) s))
       else ret tt
     end) s.

(** imap.c:210-268 RedImapAllocBlock *)
Definition RedImapAllocBlock : MF st N := fun s =>
  (if m_free (s_w s) =? 0 then fail ENOSPC
   else if (m_next (s_w s) <? FA g) || (BC g <=? m_next (s_w s)) then fail EINVAL
   else
     ob <- io (FsState.gets (find_free g (N.to_nat (NALLOC g)) (m_next (s_w s)))) ;;
     match ob with
     | Some b =>
       pure (FsState.modify (fun s => set_w (mset_next (if b + 1 =? BC g then FA g else b + 1) (s_w s)) s)) ;;;
       critical_assert (RedImapBlockSet b true) ;;;
       ret b
     | None => critical EIO
     end) s.

(** imap.c:291-351 RedImapBlockState *)
Definition RedImapBlockState (b : N) : MF st allocstate := io (FsImap.RedImapBlockState g b).
End Imap.
