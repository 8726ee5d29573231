(* The mapping from virtual addresses to bytes of segment files, as kept by the
   space-map leaves.  Models the leaf part of lib/spmaps.c and its use in
   lib/vstage.c.  Stored references are kept decoded here; that decoding inverts
   encoding is AddrProofs.laddr48b_roundtrip. *)
From Verif Require Import Base AddrModel.

(* span of a space-map leaf: 256 blocks of 64K (vaddr.c:23-58 at H_SPLEAF) *)
Definition LEAF_SPAN := LBK_SIZE * NCHILDS.

(* struct silofs_spmap_leaf, the fields sl_main_lsid and sl_subrefs[].bkr_uref *)
Record leaf := mkLeaf { lf_main : lsid; lf_refs : Z -> laddr }.

(* all leaves of all address spaces: by object type and by leaf index *)
Definition volmap := Z -> Z -> option leaf.
Definition vm_empty : volmap := fun _ _ => None.
Definition vm_set (m : volmap) (t i : Z) (l : leaf) : volmap :=
  fun t' i' => if (t' =? t) && (i' =? i) then Some l else m t' i'.

(* spleaf_lba_slot / spleaf_slot_of, lib/spmaps.c:718-732 *)
Definition leaf_slot (voff : Z) : Z := off_to_lba voff mod NCHILDS.
(* the leaf that covers a virtual offset (vrange_of_spmap at leaf height) *)
Definition leaf_index (voff : Z) : Z := voff / LEAF_SPAN.

(* spleaf_main_uref_at + spleaf_bind_bks_to_main, lib/spmaps.c:929-950 *)
Definition bind_bks_to_main (main : lsid) : Z -> laddr :=
  fun slot => laddr_setup_lbk main (lba_to_off slot).

(* vstgc_make_lsid_of_vdata, lib/vstage.c:438-447, with voff = base of the leaf *)
Definition vdata_lsid (lvid : bytes) (t i : Z) : lsid :=
  lsid_setup lvid (i * LEAF_SPAN) t H_VDATA t.

(* vstgc_spawn_spleaf, lib/vstage.c:1613-1628 with
   vstgc_require_spleaf_main_lseg, lib/vstage.c:1579-1611 *)
Definition spawn_leaf (lvid : bytes) (t i : Z) : leaf :=
  let main := vdata_lsid lvid t i in mkLeaf main (bind_bks_to_main main).

(* vstgc_do_clone_spleaf, lib/vstage.c:1630-1642: spawn, then
   silofs_sli_clone_from (lib/spmaps.c:1378-1385) copies the references *)
Definition clone_leaf (lvid : bytes) (t i : Z) (old : leaf) : leaf :=
  mkLeaf (lf_main (spawn_leaf lvid t i)) (lf_refs old).

(* vstgc_clone_rebind_lbk, lib/vstage.c:2138-2154: spleaf_resolve_main_lbk
   (lib/spmaps.c:970-978) followed by spleaf_bind_child (lib/spmaps.c:988-998) *)
Definition rebind_lbk (l : leaf) (voff : Z) : leaf :=
  mkLeaf (lf_main l)
    (fun s => if s =? leaf_slot voff then laddr_setup_lbk (lf_main l) voff else lf_refs l s).

(* silofs_sli_resolve_child (lib/spmaps.c:1394-1405) then vstgc_resolve_llink_of
   (lib/vstage.c:1841-1859).  None stands for -ENOENT. *)
Definition resolve (m : volmap) (v : vaddr) : option laddr :=
  match m (va_ltype v) (leaf_index (va_off v)) with
  | None => None
  | Some l =>
    let r := lf_refs l (leaf_slot (va_off v)) in
    if laddr_isnull r then None
    else Some (laddr_setup (la_lsid r) (va_off v) (va_len v))
  end.

(* what changes the mapping: a new leaf on first use of a range; the copy of a
   leaf of an older volume id (after a snapshot); the move of one block into the
   segment of the current volume id.  The volume id is an argument: it is read
   from the current super-block (silofs_sbi_get_lvid). *)
Inductive map_op :=
| MSpawn (lvid : bytes) (t i : Z)
| MClone (lvid : bytes) (t i : Z)
| MRebind (t voff : Z).

Definition map_step (m : volmap) (o : map_op) : volmap :=
  match o with
  | MSpawn lvid t i =>
    match m t i with None => vm_set m t i (spawn_leaf lvid t i) | Some _ => m end
  | MClone lvid t i =>
    match m t i with Some l => vm_set m t i (clone_leaf lvid t i l) | None => m end
  | MRebind t voff =>
    match m t (leaf_index voff) with
    | Some l => vm_set m t (leaf_index voff) (rebind_lbk l voff)
    | None => m
    end
  end.

Definition map_run (ops : list map_op) : volmap := fold_left map_step ops vm_empty.
