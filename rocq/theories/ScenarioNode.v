(** Concrete metadata nodes: the hypotheses of the theorems of PropNode.v are satisfiable. *)
From Verif Require Import Base Endian Crc Cache Metaroot MetaSpec MetarootP Node NodeP NodeSpec PropNode.
Ltac Zify.zify_post_hook ::= idtac.

Definition LC := mkLC true true true true.
(** an inode of 128 bytes with size 0x0102030405, 7 blocks, two links, parent 2 and one block number *)
Definition ino : list N :=
  repeat 0 16 ++ le_bytes 8 0x0102030405 ++ le_bytes 4 7 ++ le_bytes 4 1 ++ le_bytes 4 2 ++ le_bytes 4 3
  ++ le_bytes 2 0x81A4 ++ le_bytes 2 2 ++ le_bytes 4 2 ++ le_bytes 4 0x0A0B0C0D ++ repeat 0 76.
Example ino_ok : length ino = 128%nat /\ forallb (fun b => b <? 256) ino = true.
Proof. split; vm_compute; reflexivity. Qed.
(** the round trip in both byte orders, and how the size looks on a big-endian disk *)
Example C40_witness :
  forallb (fun sw =>
    let y := node_seal 128 LC sw TInode 9 ino in
    match node_load 128 LC sw true 10 TInode y with
    | Ok z => forallb (fun '(a, b) => a =? b) (combine (skipn 16 z) (skipn 16 ino)) && (fld false z 8 8 =? 9)
    | Err _ => false
    end
    && match node_load 128 LC sw true 9 TInode y with Err EIO => true | _ => false end
    && match node_load 128 LC sw false 0 TIndir y with Err EIO => true | _ => false end
    && match node_load 128 LC (negb sw) false 0 TInode y with Err EIO => true | _ => false end
    && match node_load 128 LC sw false 0 TInode (putb y 60 [5]) with Err EIO => true | _ => false end) [true; false] = true
  /\ at_ (node_seal 128 LC true TInode 9 ino) 16 8 = [0; 0; 0; 1; 2; 3; 4; 5]
  /\ at_ (node_seal 128 LC true TInode 9 ino) 0 4 = [68; 79; 78; 73]
  /\ at_ (node_seal 128 LC false TInode 9 ino) 0 4 = [73; 78; 79; 68].
Proof. repeat split; vm_compute; reflexivity. Qed.
(** the members are where one expects them *)
Example C40_layout_witness : In (16, 8)%nat (layout 128 LC TInode) /\ In (42, 2)%nat (layout 128 LC TInode) /\ In (44, 4)%nat (layout 128 LC TInode)
  /\ In (124, 4)%nat (layout 128 LC TInode) /\ In (20, 4)%nat (layout 128 LC TIndir) /\ In (127, 1)%nat (layout 128 LC TImap) /\ In (44, 2)%nat (layout 128 LC TMaster).
Proof. vm_compute. tauto. Qed.

Definition cA := mkMC 100 5000 28 4 32 9 true true true true.
Definition cB := mkMC 100 5000 28 4 31 9 true true true true.
Definition cC := mkMC 100 5000 28 4 32 9 true true true false.
(** without the POSIX API the setting of REDCONF_API_POSIX_LINK does not matter *)
Definition cD := mkMC 100 5000 28 4 32 9 false true true true.
Definition cE := mkMC 100 5000 28 4 32 9 false true true false.
Definition build : list N := [118; 50; 46; 48; 0; 0; 0; 0].
Example C39_witness : conf_ok cA /\ compatible cA cA /\ ~ compatible cA cB /\ ~ compatible cA cC /\ compatible cD cE /\ ~ compatible cA cD.
Proof.
  unfold conf_ok, compatible. cbn. split; [repeat split; reflexivity|]. split; [tauto|]. split; [intros H; decompose [and] H; discriminate|].
  split; [intros (_ & _ & _ & _ & _ & _ & _ & _ & _ & H); discriminate (H eq_refl)|]. split; [repeat split; discriminate|].
  intros H; decompose [and] H; discriminate.
Qed.
Example C39_mount_witness : forallb (fun sw =>
  match mount_master 512 LC sw false 0 cA (master_written 512 LC sw cA build 99 4) with Ok q => q =? 4 | _ => false end
  && match mount_master 512 LC sw false 0 cB (master_written 512 LC sw cA build 99 4) with Err EIO => true | _ => false end
  && match mount_master 512 LC sw false 0 cC (master_written 512 LC sw cA build 99 4) with Err EIO => true | _ => false end
  && match mount_master 512 LC sw false 0 cE (master_written 512 LC sw cD build 99 4) with Ok q => q =? 4 | _ => false end) [true; false] = true.
Proof. vm_compute. reflexivity. Qed.
