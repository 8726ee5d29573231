(* What a removal has to remove and to leave, over PackSpec. *)
From Verif Require Import Base AddrModel WalkModel PackModel PackSpec.

(* a segment of the volume of v: it has the volume id of the super-block's *)
Definition own (v : vol) (l : lsid) : Prop := ls_lvid l = ls_lvid (la_lsid (v_super v)).

(* map nodes by the slots that lead to them, last slot first *)
Inductive node_path (E : env) (R : repo) (v : vol) : list nat -> nat -> link -> Prop :=
| np_root : forall i lk, nth_error (v_roots v) i = Some (Some lk) -> node_path E R v [i] 4 lk
| np_child : forall p h lk b sl i c,
    node_path E R v p (S h) lk -> reads R (lk_addr lk) b -> e_node E (S h) lk b = Some sl ->
    nth_error sl i = Some (Some c) -> node_path E R v (i :: p) h c.

(* segments named by the slots of a leaf, whether the slot is in use or not *)
Definition block_seg (E : env) (R : repo) (v : vol) (p : list nat) (l : lsid) : Prop :=
  exists lk b sl x, node_path E R v p 0 lk /\ reads R (lk_addr lk) b /\ e_leaf E lk b = Some sl /\
                    In x sl /\ l = la_lsid (sl_addr x).

(* every segment the file-system names: of blocks, of map nodes, of its super-block *)
Definition fs_seg (E : env) (R : repo) (v : vol) (l : lsid) : Prop :=
  l = la_lsid (v_super v) \/ (exists p h lk, node_path E R v p h lk /\ l = la_lsid (lk_addr lk)) \/
  exists p, block_seg E R v p l.

(* how the program places map nodes and blocks in segments of the volume *)
Record parted (E : env) (R : repo) (v : vol) : Prop := {
  (* nodes in one segment are children of one node, or one root *)
  pt_nodes : forall i p h lk j q k lk', node_path E R v (i :: p) h lk -> node_path E R v (j :: q) k lk' ->
    own v (la_lsid (lk_addr lk)) -> la_lsid (lk_addr lk) = la_lsid (lk_addr lk') ->
    p = q /\ (p = [] -> i = j);
  (* blocks, map nodes and the super-block have segments of their own *)
  pt_block : forall p l q h lk, block_seg E R v p l -> own v l -> node_path E R v q h lk ->
    l <> la_lsid (lk_addr lk);
  pt_super : forall p h lk, node_path E R v p h lk -> la_lsid (lk_addr lk) <> la_lsid (v_super v);
  pt_super_block : forall p l, block_seg E R v p l -> l <> la_lsid (v_super v);
  (* every object space has a root, every slot of a leaf a block *)
  pt_roots : forall i, nth_error (v_roots v) i <> Some None;
  pt_slots : forall p lk b sl x, node_path E R v p 0 lk -> reads R (lk_addr lk) b -> e_leaf E lk b = Some sl ->
    In x sl -> laddr_isnull (sl_addr x) = false;
  (* the boot record has its size *)
  pt_boot : forall e, r_blobs R (ca_hash (v_boot v)) = Some e -> length e = 1024%nat }.

(* all that a removal may change: segments of the volume go (or are made anew, all
   zeros), and so may the boot record; other segments stay, but one that was not there
   may be made, all zeros *)
Definition blank (g : option seg) : Prop := exists n, g = Some (mkSeg n (fun _ => 0)).
Definition rm_frame (v : vol) (R r : repo) : Prop :=
  r_packs r = r_packs R /\
  (forall l, r_segs r l = r_segs R l \/ (own v l /\ r_segs r l = None) \/
             ((own v l \/ r_segs R l = None) /\ blank (r_segs r l))) /\
  (forall h, h <> ca_hash (v_boot v) -> r_blobs r h = r_blobs R h) /\
  (forall c, c <> v_boot v -> r_refs r c = r_refs R c).

(* what is left when all of it was removed: the segments of the volume that the
   file-system names are gone, and its boot record; nothing else changed *)
Definition removed (E : env) (v : vol) (R r : repo) : Prop :=
  r_packs r = r_packs R /\
  (forall l, fs_seg E R v l -> own v l -> r_segs r l = None) /\
  (forall l, r_segs r l = r_segs R l \/ (fs_seg E R v l /\ own v l)) /\
  r_blobs r (ca_hash (v_boot v)) = None /\ r_refs r (v_boot v) = false /\
  (forall h, h <> ca_hash (v_boot v) -> r_blobs r h = r_blobs R h) /\
  (forall c, c <> v_boot v -> r_refs r c = r_refs R c).
