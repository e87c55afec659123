(** Specification of the file system as a user sees it: files with contents and link counts,
    directories mapping names to inode numbers.  Independent of the model of the code. *)
From Verif Require Import Base FsDir.

(** A file, or a directory with its parent and its entries.  Directory entries occupy numbered
    slots: the order in which a directory is enumerated. *)
Inductive anode :=
| AFile (nlink size : N) (byte : N -> N)
| ADir (parent : N) (slots : N -> option (name * N)).
Definition fs := N -> option anode.
Definition ROOT : N := 2.

(** Slot k of directory d holds name nm for inode i. *)
Definition entry (F : fs) (d k : N) (nm : name) (i : N) : Prop :=
  exists p sl, F d = Some (ADir p sl) /\ sl k = Some (nm, i).
Definition isdir (F : fs) (d : N) : Prop := exists p sl, F d = Some (ADir p sl).
Definition isfile (F : fs) (d : N) : Prop := exists nl sz by_, F d = Some (AFile nl sz by_).
Definition named (F : fs) (d : N) (nm : name) (i : N) : Prop := exists k, entry F d k nm i.
Definition empty_dir (F : fs) (d : N) : Prop := exists p sl, F d = Some (ADir p sl) /\ forall k, sl k = None.

(** Being the root or having a parent that leads to the root. *)
Inductive Reach (F : fs) : N -> Prop :=
| R_root : Reach F ROOT
| R_step i p sl : F i = Some (ADir p sl) -> Reach F p -> Reach F i.
(** [i] is [a] or below [a]. *)
Inductive Below (F : fs) (a : N) : N -> Prop :=
| B_refl : Below F a a
| B_step i p sl : F i = Some (ADir p sl) -> Below F a p -> Below F a i.

(** The namespace is a tree and link counts are right. *)
Record WF (F : fs) : Prop := {
  wf_root : exists sl, F ROOT = Some (ADir 0 sl);
  wf_none : F 0 = None;
  wf_ent : forall d k nm i, entry F d k nm i -> F i <> None /\ i <> ROOT;
  wf_name : forall d k l nm i j, entry F d k nm i -> entry F d l nm j -> k = l;
  wf_dir : forall i p sl, F i = Some (ADir p sl) -> i <> ROOT ->
     exists k nm, entry F p k nm i /\ forall d' k' nm', entry F d' k' nm' i -> d' = p /\ k' = k;
  wf_file : forall i nl sz by_, F i = Some (AFile nl sz by_) -> 1 <= nl <= 65535 /\
     exists L, NoDup L /\ lenN L = nl /\ forall d k, In (d, k) L <-> exists nm, entry F d k nm i;
  wf_reach : forall i, isdir F i -> Reach F i }.

(** * Changes *)
Definition set_slot (F : fs) (d k : N) (v : option (name * N)) : fs :=
  match F d with Some (ADir p sl) => upd F d (Some (ADir p (upd sl k v))) | _ => F end.
Definition set_parent (F : fs) (i p : N) : fs :=
  match F i with Some (ADir _ sl) => upd F i (Some (ADir p sl)) | _ => F end.
(** One name of i less. *)
Definition unname (F : fs) (i : N) : fs :=
  match F i with
  | Some (AFile nl sz by_) => upd F i (if 1 <? nl then Some (AFile (nl - 1) sz by_) else None)
  | Some (ADir _ _) => upd F i None
  | None => F
  end.
Definition newnode (dir : bool) (p : N) : anode :=
  if dir then ADir p (fun _ => None) else AFile 1 0 (fun _ => 0).

(** * Operations that succeed *)
Definition op_create (F : fs) (p : N) (nm : name) (dir : bool) (i : N) (F' : fs) : Prop :=
  i <> 0 /\ F i = None /\ isdir F p /\ (forall j, ~ named F p nm j) /\
  exists k, (forall nm' j, ~ entry F p k nm' j) /\
    F' = set_slot (upd F i (Some (newnode dir p))) p k (Some (nm, i)).
Definition op_link (F : fs) (p : N) (nm : name) (i : N) (F' : fs) : Prop :=
  exists nl sz by_ k, F i = Some (AFile nl sz by_) /\ nl < 65535 /\ isdir F p /\ (forall j, ~ named F p nm j) /\
    (forall nm' j, ~ entry F p k nm' j) /\
    F' = upd (set_slot F p k (Some (nm, i))) i (Some (AFile (nl + 1) sz by_)).
Definition op_unlink (F : fs) (p : N) (nm : name) (F' : fs) : Prop :=
  exists k i, entry F p k nm i /\ (isdir F i -> empty_dir F i) /\ F' = unname (set_slot F p k None) i.
(** [j] = 0: the destination name did not exist. *)
Definition op_rename (F : fs) (sp : N) (sn : name) (dp : N) (dn : name) (F' : fs) : Prop :=
  isdir F dp /\
  exists ks kd i, entry F sp ks sn i /\
    ((named F dp dn i /\ F' = F) \/
     (isdir F i -> ~ Below F i dp) /\
     exists j, i <> j /\
      (j = 0 /\ (forall x, ~ named F dp dn x) /\ (forall nm x, ~ entry F dp kd nm x) \/
       entry F dp kd dn j /\ (isdir F i -> empty_dir F j) /\ (isfile F i -> isfile F j)) /\
      F' = unname (set_parent (set_slot (set_slot F dp kd (Some (dn, i))) sp ks None) i dp) j).
Definition op_write (F : fs) (i start n : N) (src : N -> N) (F' : fs) : Prop :=
  exists nl sz by_, F i = Some (AFile nl sz by_) /\
    F' = upd F i (Some (AFile nl (N.max sz (start + n))
          (fun x => if (start <=? x) && (x <? start + n) then src (x - start) else by_ x))).
Definition op_truncate (F : fs) (i size : N) (F' : fs) : Prop :=
  exists nl sz by_, F i = Some (AFile nl sz by_) /\
    F' = upd F i (Some (AFile nl size (fun x => if x <? size then by_ x else 0))).

(** Adding an entry in a free slot can fail with these errors. *)
Definition bad_name (nmax : N) (nm : name) (e : errno) : Prop :=
  e = EINVAL /\ nlen nm = 0 \/ e = ENAMETOOLONG /\ nmax < nlen nm.
Definition bad_dir (F : fs) (p : N) (e : errno) : Prop :=
  e = EBADF /\ F p = None \/ e = ENOTDIR /\ isfile F p.
