(* The tree of space maps of one address space: how an offset leads from the super block through
   four levels of nodes to one leaf.  lib/spmaps.c, lib/super.c, lib/addr/vaddr.c.

   A node is the range stored in its header (kept in its stored form, and decoded at each use as
   the code does) and 256 references; a reference leads to the child itself here, where the code
   follows the stored address of the child (that addresses round-trip is AddrProps.v, that each
   child has its own place is bpos_of_child below).  None: the behaviour is undefined, or
   nothing is there. *)
From Verif Require Import Base AddrModel MapModel.

(* struct silofs_vrange, include/silofs/addr/vaddr.h *)
Record vrange := mkVrange { vr_beg : Z; vr_end : Z; vr_len : Z; vr_height : Z }.

(* silofs_vrange_setup, lib/addr/vaddr.c:299-306 *)
Definition vrange_setup (h beg en : Z) : vrange := mkVrange beg en (en - beg) h.
(* silofs_vrange_within, lib/addr/vaddr.c:294-297 *)
Definition vrange_within (r : vrange) (off : Z) : bool := (vr_beg r <=? off) && (off <? vr_end r).
(* silofs_vrange_of_space and silofs_vrange_of_spmap (the same code), lib/addr/vaddr.c:314-330 *)
Definition vrange_of_spmap (h voff : Z) : vrange :=
  let span := space_span h in
  let beg := off_align voff span in
  vrange_setup h beg (off_next beg span).
(* silofs_vrange_voff_at, lib/addr/vaddr.c:337-346 *)
Definition vrange_voff_at (r : vrange) (slot : Z) : Z :=
  let span := space_span (vr_height r - 1) in off_align (vr_beg r + slot * span) span.
(* silofs_vrange_next, lib/addr/vaddr.c:348-362 *)
Definition vrange_next (r : vrange) (voff : Z) : Z :=
  if voff <? vr_beg r then vr_beg r
  else if vr_end r <=? voff then voff
  else off_next voff (space_span (vr_height r - 1)).

(* silofs_vrange128_htox, lib/addr/vaddr.c:375-380, with cpu_to_len_height 96-106; None: an
   assertion fails *)
Definition vrange128_htox (r : vrange) : option bytes :=
  if (vr_len r <=? 2 ^ 58) && (vr_height r <=? H_SUPER)
  then Some (le_enc 8 (u64 (vr_beg r)) ++
             le_enc 8 (Z.lor (u64 (Z.shiftl (vr_len r) 4)) (Z.land (vr_height r) 15)))
  else None.
(* silofs_vrange128_xtoh, lib/addr/vaddr.c:382-392, with len_height_to_cpu 108-119 *)
Definition vrange128_xtoh (b : bytes) : option vrange :=
  let beg := s64 (le_dec (ztake 8 b)) in
  let v := le_dec (zdrop 8 b) in
  let len := Z.shiftr v 4 in
  let h := Z.land v 15 in
  if (len <=? 2 ^ 58) && (h <=? H_SUPER) then Some (vrange_setup h beg (beg + len)) else None.

(* spnode_slot_of, lib/spmaps.c:164-181.  The product is of signed 64-bit integers: undefined
   when it overflows.  The quotient is of unsigned ones. *)
Definition slot_of (r : vrange) (voff : Z) : option Z :=
  let p := (voff - vr_beg r) * NCHILDS in
  if (p <? - 2 ^ 63) || (2 ^ 63 <=? p) then None
  else if vr_len r =? 0 then None
  else let slot := u64 p / vr_len r in
       if slot <? NCHILDS then Some slot else None.

(* sni_bpos_of_child, lib/spmaps.c:1659-1666: where the child of a slot is stored within the
   segment of its parent *)
Definition bpos_of_child (r : vrange) (voff : Z) : option Z :=
  match slot_of r voff with Some s => Some (s * SPMAP_SIZE) | None => None end.
(* sni_base_voff_of_child, lib/spmaps.c:1668-1676 *)
Definition base_voff_of_child (r : vrange) (voff : Z) : Z := vr_beg (vrange_of_spmap (vr_height r - 1) voff).

(* sb_slot_of, lib/super.c:751-759 *)
Definition sb_slot_of (voff : Z) : Z := Z.quot voff (space_span (H_SUPER - 1)).
(* the range stored in the super block: sbi_assign_vspace_span, lib/super.c:981-987 *)
Definition sb_vrange : vrange := vrange_of_spmap H_SUPER 0.

(* a leaf (with a mark that tells leaves apart) or a node *)
Inductive smap := SLeaf (hdr : bytes) (mark : Z) | SNode (hdr : bytes) (subs : Z -> option smap).

(* silofs_sni_resolve_child at each level, lib/spmaps.c:1632-1647, from the root node down
   (vstgc_stage_spnodes_of, lib/vstage.c:1778-1799, and vstgc_stage_spleaf_of 1700-1709): the leaf reached, with the
   range it holds *)
Fixpoint find (m : smap) (voff : Z) : option (vrange * Z) :=
  match m with
  | SLeaf b x => match vrange128_xtoh b with Some r => Some (r, x) | None => None end
  | SNode b subs =>
    match vrange128_xtoh b with
    | None => None
    | Some r =>
      if vrange_within r voff
      then match slot_of r voff with
           | Some s => match subs s with Some c => find c voff | None => None end
           | None => None
           end
      else None
    end
  end.

(* silofs_sni_setup_spawned, lib/spmaps.c:1527-1539, and silofs_sli_setup_spawned 1128-1140: a
   new map of height h for an offset *)
Definition new_hdr (h voff : Z) : bytes :=
  match vrange128_htox (vrange_of_spmap h voff) with Some b => b | None => [] end.

(* silofs_sni_bind_child, lib/spmaps.c:1556-1568, and the descent that creates the missing maps
   (vstgc_require_spnodes_of, lib/vstage.c:1801-1822, and vstgc_require_spleaf 1766-1774); n is the number of levels above the leaf.  The leaf
   reached is given the mark x. *)
Definition new_map (n : nat) (voff x : Z) : smap :=
  let hdr := new_hdr (Z.of_nat n + H_SPLEAF) voff in
  match n with O => SLeaf hdr x | S _ => SNode hdr (fun _ => None) end.
Fixpoint require (n : nat) (m : smap) (voff x : Z) : option smap :=
  match n, m with
  | O, SLeaf b _ => Some (SLeaf b x)
  | S k, SNode b subs =>
    match vrange128_xtoh b with
    | None => None
    | Some r =>
      if vrange_within r voff then
        match slot_of r voff with
        | None => None
        | Some s =>
          let c := match subs s with Some c => c | None => new_map k voff x end in
          match require k c voff x with
          | Some c' => Some (SNode b (fset subs s (Some c')))
          | None => None
          end
        end
      else None
    end
  | _, _ => None
  end.

(* the root node of an address space (silofs_sbi_bind_sproot; one per kind of object), made for
   the first offset used *)
Definition ROOT_N : nat := 4.
Definition root_new (voff : Z) : smap := new_map ROOT_N voff 0.
