(** The volume-level invariant of FsVolumeG.v for the POSIX-like API: the file systems are trees with right link
    counts ([WF]). *)
From Verif Require Export FsVolumeG FsFormat.
From Verif Require Import FsSpec.
Notation CS := (FsVolumeG.CS WF) (only parsing).
Notation CS_intro := (FsVolumeG.CS_intro WF) (only parsing).
Notation CS_lose := (FsVolumeG.CS_lose WF) (only parsing).
Notation CS_mayhap := (FsVolumeG.CS_mayhap WF) (only parsing).
Notation CS_flush := (FsVolumeG.CS_flush WF) (only parsing).
Notation VIx := (FsVolumeG.VIx WF) (only parsing).
Notation x_mnt := (FsVolumeG.x_mnt WF) (only parsing).
Notation x_q := (FsVolumeG.x_q WF) (only parsing).
Notation x_mq := (FsVolumeG.x_mq WF) (only parsing).
Notation x_seq := (FsVolumeG.x_seq WF) (only parsing).
Notation x_w := (FsVolumeG.x_w WF) (only parsing).
Notation x_c := (FsVolumeG.x_c WF) (only parsing).
Notation x_WF := (FsVolumeG.x_WF WF) (only parsing).
Notation x_CF := (FsVolumeG.x_CF WF) (only parsing).
Notation x_com := (FsVolumeG.x_com WF) (only parsing).
Notation x_un := (FsVolumeG.x_un WF) (only parsing).
Notation VI := (FsVolumeG.VI WF) (only parsing).
Notation VIx_CS := (FsVolumeG.VIx_CS WF) (only parsing).
Notation VI_CS := (FsVolumeG.VI_CS WF) (only parsing).
Notation VIx_mayhap := (FsVolumeG.VIx_mayhap WF) (only parsing).
Notation VIx_wr := (FsVolumeG.VIx_wr WF) (only parsing).
Notation CR := (FsVolumeG.CR WF) (only parsing).
Notation TR := (FsVolumeG.TR WF) (only parsing).
Notation CS_CR := (FsVolumeG.CS_CR WF) (only parsing).
Notation TR_app := (FsVolumeG.TR_app WF) (only parsing).
Notation TR_nil := (FsVolumeG.TR_nil WF) (only parsing).
Notation TR_imp := (FsVolumeG.TR_imp WF) (only parsing).
Notation mount_ok := (FsVolumeG.mount_ok WF) (only parsing).
Notation transact_ok := (FsVolumeG.transact_ok WF) (only parsing).
Notation rollback_ok := (FsVolumeG.rollback_ok WF) (only parsing).
Notation OPS := (FsVolumeG.OPS WF) (only parsing).
Notation VIx_vs := (FsVolumeG.VIx_vs WF) (only parsing).
Notation core_ok := (FsVolumeG.core_ok WF) (only parsing).
Notation autocommit_ok := (FsVolumeG.autocommit_ok WF) (only parsing).
Notation UI := (FsVolumeG.UI WF) (only parsing).
Notation VI_res := (FsVolumeG.VI_res WF) (only parsing).
Notation unmount_ok := (FsVolumeG.unmount_ok WF) (only parsing).
Notation back_ok := (FsVolumeG.back_ok WF) (only parsing).
Notation MS := (FsFormat.MS WF) (only parsing).
Notation CRo := (FsFormat.CRo WF) (only parsing).
Notation TRo := (FsFormat.TRo WF) (only parsing).
Notation TR_TRo := (FsFormat.TR_TRo WF) (only parsing).
Notation CRo_none := (FsFormat.CRo_none WF) (only parsing).
Notation MS_lose := (FsFormat.MS_lose WF) (only parsing).
Notation format_gen := (FsFormat.format_gen WF) (only parsing).
Notation read_run := (FsFormat.read_run WF) (only parsing).
Notation back_CS := (FsFormat.back_CS WF) (only parsing).
Notation back_TR := (FsFormat.back_TR WF) (only parsing).
