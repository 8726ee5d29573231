(* What an archived, restored or removed file-system is, in terms of the bytes held
   by the segment files of a repository: which addresses belong to it, when it is
   sound, and what it means that an archive store is intact. *)
From Verif Require Import Base AddrModel WalkModel PackModel.

(* the byte at position p of segment l *)
Definition seg_byte (R : repo) (l : lsid) (p : Z) : option Z :=
  match r_segs R l with
  | Some g => if (0 <=? p) && (p <? sg_size g) then Some (sg_at g p) else None
  | None => None
  end.

Definition inside (a : laddr) (l : lsid) (p : Z) : Prop :=
  l = la_lsid a /\ la_pos a <= p < la_pos a + la_len a.

(* address a holds the bytes b *)
Definition reads (R : repo) (a : laddr) (b : bytes) : Prop :=
  length b = Z.to_nat (la_len a) /\
  forall i, (i < length b)%nat -> seg_byte R (la_lsid a) (la_pos a + Z.of_nat i) = Some (nth i b 0).

(* ---- the addresses of a file-system ---- *)
(* map nodes: the roots, and what the slots of a node name *)
Inductive node_at (E : env) (R : repo) (v : vol) : nat -> link -> Prop :=
| na_root : forall lk, In (Some lk) (v_roots v) -> node_at E R v 4 lk
| na_child : forall h lk b sl c,
    node_at E R v (S h) lk -> reads R (lk_addr lk) b -> e_node E (S h) lk b = Some sl ->
    In (Some c) sl -> node_at E R v h c.

(* the super-block, every map node, every block in use *)
Inductive live (E : env) (R : repo) (v : vol) : laddr -> Prop :=
| lv_super : live E R v (v_super v)
| lv_node : forall h lk, node_at E R v h lk -> live E R v (lk_addr lk)
| lv_block : forall lk b sl x,
    node_at E R v 0 lk -> reads R (lk_addr lk) b -> e_leaf E lk b = Some sl ->
    In x sl -> 0 < sl_used x -> live E R v (sl_addr x).

(* an address the program makes: within its segment, fields of their stored width *)
Definition proper (a : laddr) : Prop :=
  length (ls_lvid (la_lsid a)) = 16%nat /\
  0 < ls_lsize (la_lsid a) < 2 ^ 32 /\ 0 <= ls_vindex (la_lsid a) < 2 ^ 32 - 1 /\
  0 <= ls_vspace (la_lsid a) < 256 /\ 0 <= ls_height (la_lsid a) < 256 /\
  LT_BOOTREC < ls_ltype (la_lsid a) < 256 /\
  0 <= la_pos a /\ 0 < la_len a /\ la_pos a + la_len a <= ls_lsize (la_lsid a).

(* a segment file of a size the program gives it *)
Definition seg_sized (l : lsid) (g : seg) : Prop :=
  sg_size g mod LBK_SIZE = 0 /\ 0 <= sg_size g <= ls_lsize l + LBK_SIZE.
Definition segs_sized (R : repo) : Prop := forall l g, r_segs R l = Some g -> seg_sized l g.

(* children fill a node from its first slot on *)
Definition dense {A} (sl : list (option A)) : Prop :=
  forall i j c, (i < j)%nat -> nth_error sl j = Some (Some c) -> exists c', nth_error sl i = Some (Some c').

(* the boot record named by c: a record the program encoded, held under its digest *)
Definition boot_ok (E : env) (R : repo) (c : caddr) (b : bytes) : Prop :=
  r_refs R c = true /\
  (exists e, r_blobs R (ca_hash c) = Some e /\ firstn 1024 e = b) /\
  length b = 1024%nat /\ c = mkCaddr (e_hash E b) 1024 CT_BOOTREC /\
  exists br, e_bdec E b = Some br /\ e_benc E br = b.

(* a file-system none of whose parts is missing *)
Record sound (E : env) (R : repo) (v : vol) : Prop := {
  so_sized : segs_sized R;
  so_live : forall a, live E R v a -> proper a /\ exists b, reads R a b;
  so_node : forall h lk b, node_at E R v (S h) lk -> reads R (lk_addr lk) b ->
            exists sl, e_node E (S h) lk b = Some sl /\ dense sl;
  so_leaf : forall lk b, node_at E R v 0 lk -> reads R (lk_addr lk) b ->
            exists sl, e_leaf E lk b = Some sl;
  so_boot : exists b, boot_ok E R (v_boot v) b }.

(* ---- the archive store ---- *)
(* no object is longer than its name says, and a complete one matches its name: true
   of an empty store, and kept by every archive run, failed or not *)
Definition packs_ok (E : env) (R : repo) : Prop :=
  forall c e, r_packs R c = Some e ->
    Z.of_nat (length e) <= ca_size c /\
    (Z.of_nat (length e) = ca_size c -> e_hash E e = ca_hash c).

(* byte strings that take part: archived objects, ranges of segments, the boot record *)
Definition stored (E : env) (R : repo) (v : vol) (x : bytes) : Prop :=
  (exists c, r_packs R c = Some x) \/ (exists a, reads R a x) \/ boot_ok E R (v_boot v) x.

(* no two of them have the same digest *)
Definition clash_free (E : env) (R : repo) (v : vol) : Prop :=
  forall x y, stored E R v x -> stored E R v y -> length x = length y ->
    e_hash E x = e_hash E y -> x = y.

(* shape of the digest and checksum functions *)
Definition digests (E : env) : Prop :=
  (forall x, length (e_hash E x) = 32%nat) /\ (forall x, 0 <= e_xxh E x < 2 ^ 64).

(* some step was made to fail *)
Definition faulty (fs : list fate) : Prop := exists n, In (FBad n) fs.

(* what the decoders yield are addresses the program makes *)
Record typed (E : env) (v : vol) : Prop := {
  ty_super : proper (v_super v);
  ty_root : forall lk, In (Some lk) (v_roots v) -> proper (lk_addr lk);
  ty_node : forall h lk b sl c, e_node E h lk b = Some sl -> In (Some c) sl -> proper (lk_addr c);
  ty_leaf : forall lk b sl x, e_leaf E lk b = Some sl -> In x sl -> 0 < sl_used x -> proper (sl_addr x) }.

(* the boot record, decoded and encoded again, is what it was *)
Definition boot_stable (E : env) (R : repo) (v : vol) : Prop :=
  forall e br, r_blobs R (ca_hash (v_boot v)) = Some e ->
    e_bdec E (firstn 1024 e) = Some br -> e_benc E br = firstn 1024 e.

(* ---- what a restore may change ---- *)
(* positions no address of the index covers; segments the index names *)
Definition outside (ds : list desc) (l : lsid) (p : Z) : Prop :=
  forall d, In d ds -> is_bootrec (d_laddr d) = false -> ~ inside (d_laddr d) l p.
Definition names (ds : list desc) (l : lsid) : Prop :=
  exists d, In d ds /\ is_bootrec (d_laddr d) = false /\ la_lsid (d_laddr d) = l.

(* the byte is as before, or was not there and reads as zero in a segment the index names *)
Definition same_or_zero (ds : list desc) (R r : repo) (l : lsid) (p : Z) : Prop :=
  seg_byte r l p = seg_byte R l p \/
  (names ds l /\ seg_byte R l p = None /\ seg_byte r l p = Some 0).

(* a boot record (or the first part of one) under its own digest *)
Definition boot_image (E : env) (h : bytes) (x : bytes) : Prop := exists br n old,
  h = e_hash E (e_benc E br) /\ x = overwrite (firstn n (e_benc E br)) old.

(* all that a restore of ds may change *)
Definition frame (E : env) (ds : list desc) (R r : repo) : Prop :=
  r_packs r = r_packs R /\
  (forall l p, outside ds l p -> same_or_zero ds R r l p) /\
  (forall h, r_blobs r h = r_blobs R h \/ exists x, r_blobs r h = Some x /\ boot_image E h x) /\
  (forall c, r_refs r c = r_refs R c \/ (r_refs r c = true /\ exists br, c = caddr_of E (e_benc E br) CT_BOOTREC)).
