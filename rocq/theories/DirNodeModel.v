(* One node of a directory's hash tree, lib/dir.c: fixed-size entries growing up and names
   growing down in one 7680-byte buffer.  Assertions silofs_assert_* are compiled out in
   release builds and not modelled; the entry fields are those of defs.h:858-863. *)
From Verif Require Import Base.

Definition DE_SIZE := 16.        (* sizeof(struct silofs_dir_entry) *)
Definition DN_NBUF := 7680.      (* SILOFS_DIR_NODE_NBUF_SIZE = 16 * SILOFS_DIR_NODE_NENTS *)
Definition DTREE_FANOUT := 64.   (* SILOFS_DIR_NODE_NCHILDS *)
Definition NULL_OFF := -1.       (* SILOFS_OFF_NULL *)
Definition HASH_MASK := 16777215. (* DE_NAME_HASH_MASK, lib/dir.c:256-257 *)

(* struct silofs_dtree_node, defs.h:870-881 *)
Record dnode := mkDn {
  dn_parent : Z; dn_index : Z; dn_nde : Z; dn_nnb : Z; dn_nact : Z;
  dn_child : list Z; dn_data : bytes }.

Definition with_data (n : dnode) (d : bytes) : dnode :=
  mkDn (dn_parent n) (dn_index n) (dn_nde n) (dn_nnb n) (dn_nact n) (dn_child n) d.
(* dtn_set_nde, lib/dir.c:432-436 *)
Definition with_nde (n : dnode) (x : Z) : dnode :=
  mkDn (dn_parent n) (dn_index n) (u16 x) (dn_nnb n) (dn_nact n) (dn_child n) (dn_data n).
(* dtn_set_nnb, lib/dir.c:448-452 *)
Definition with_nnb (n : dnode) (x : Z) : dnode :=
  mkDn (dn_parent n) (dn_index n) (dn_nde n) (u16 x) (dn_nact n) (dn_child n) (dn_data n).

(* dtn_setup, lib/dir.c:535-548 *)
Definition dtn_setup (index parent_off : Z) : dnode :=
  mkDn parent_off index 0 0 0 (repeat NULL_OFF 64) (zrepeat 0 DN_NBUF).

(* the fields of the entry at a slot: de_ino, de_name_hash, de_dt, de_name_len,
   de_name_pos, lib/dir.c:268-321 *)
Definition de_ino (d : bytes) (s : nat) : Z := le_dec (zsub (DE_SIZE * Z.of_nat s) 8 d).
Definition de_hash_dt (d : bytes) (s : nat) : Z := le_dec (zsub (DE_SIZE * Z.of_nat s + 8) 4 d).
Definition de_name_hash (d : bytes) (s : nat) : Z := Z.land (de_hash_dt d s) HASH_MASK.
Definition de_dt (d : bytes) (s : nat) : Z := Z.shiftr (de_hash_dt d s) 24.
Definition de_name_len (d : bytes) (s : nat) : Z := le_dec (zsub (DE_SIZE * Z.of_nat s + 12) 2 d).
Definition de_name_pos (d : bytes) (s : nat) : Z := le_dec (zsub (DE_SIZE * Z.of_nat s + 14) 2 d).

(* the 16 bytes of an entry: de_assign_meta, lib/dir.c:341-348 with de_set_name_hash_dt
   291-298 *)
Definition de_bytes (ino dt hash nlen pos : Z) : bytes :=
  le_enc 8 (u64 ino) ++ le_enc 4 (u32 (Z.lor (Z.shiftl dt 24) (Z.land hash HASH_MASK))) ++
  le_enc 2 (u16 nlen) ++ le_enc 2 (u16 pos).
Definition de_write (d : bytes) (s : nat) (b : bytes) : bytes := zput d (DE_SIZE * Z.of_nat s) b.
(* de_deactivate, lib/dir.c:355-361 *)
Definition de_zero : bytes := de_bytes 0 0 0 0 0.
(* de_set_name_pos, lib/dir.c:317-320 *)
Definition de_set_pos (d : bytes) (s : nat) (pos : Z) : bytes :=
  zput d (DE_SIZE * Z.of_nat s + 14) (le_enc 2 (u16 pos)).

(* de_isactive, lib/dir.c:350-353 with ino_isvalid 61-65 *)
Definition de_isactive (d : bytes) (s : nat) : bool := (0 <? de_ino d s) && (0 <? de_name_len d s).

(* the name of an entry: dtn_name_of, lib/dir.c:595-602 *)
Definition de_name (d : bytes) (s : nat) : bytes := zsub (de_name_pos d s) (de_name_len d s) d.

(* dtn_de_has_name, lib/dir.c:613-627 with dtn_has_name_at 604-611 and
   de_has_name_hash_lo 327-334 *)
Definition de_has_name (d : bytes) (s : nat) (name : bytes) (hash : Z) : bool :=
  (de_name_hash d s =? Z.land hash HASH_MASK) && (de_name_len d s =? zlen name) &&
  bytes_eqb (zsub (de_name_pos d s) (zlen name) d) name.

Definition dslots (n : dnode) : list nat := seq 0 (Z.to_nat (dn_nde n)).

(* dtn_search, lib/dir.c:629-643 *)
Definition dtn_search (n : dnode) (name : bytes) (hash : Z) : option nat :=
  find (fun s => de_isactive (dn_data n) s && de_has_name (dn_data n) s name hash) (dslots n).

(* dtn_data_used, lib/dir.c:464-467; dtn_may_insert, lib/dir.c:691-699 *)
Definition dtn_data_used (n : dnode) : Z := dn_nnb n + dn_nde n * DE_SIZE.
Definition dtn_may_insert (n : dnode) (nlen : Z) : bool := DE_SIZE + nlen + dtn_data_used n <=? DN_NBUF.

(* dtn_resolve_insert_de, lib/dir.c:719-732 *)
Definition dtn_insert_slot (n : dnode) : nat :=
  match find (fun s => negb (de_isactive (dn_data n) s)) (dslots n) with
  | Some s => s
  | None => Z.to_nat (dn_nde n)
  end.

(* dtn_insert, lib/dir.c:734-749 with dtn_insert_name_pos 710-717 and dtn_de_assing_name
   701-708 *)
Definition dtn_insert (n : dnode) (name : bytes) (hash ino dt : Z) : dnode :=
  let pos := DN_NBUF - (dn_nnb n + zlen name) in
  let s := dtn_insert_slot n in
  let d1 := de_write (dn_data n) s (de_bytes ino dt hash (zlen name) pos) in
  let d2 := zput d1 (de_name_pos d1 s) name in
  let n1 := with_data n d2 in
  let n2 := if Z.of_nat s =? dn_nde n then with_nde n1 (dn_nde n + 1) else n1 in
  with_nnb n2 (dn_nnb n + zlen name).

(* dtn_punch_name_at, lib/dir.c:751-770: both branches copy the same bytes *)
Definition dtn_punch (n : dnode) (pos nlen : Z) : bytes * bool :=
  let beg := DN_NBUF - dn_nnb n in
  let mv := pos - beg in
  if beg <? pos then (zput (dn_data n) (pos + nlen - mv) (zsub beg mv (dn_data n)), true)
  else (dn_data n, false).

(* dtn_remove_fixup, lib/dir.c:792-810 *)
Definition dtn_fixup (ss : list nat) (d : bytes) (ref moved : Z) : bytes :=
  fold_left (fun d s => if de_isactive d s && (de_name_pos d s <? ref)
                        then de_set_pos d s (de_name_pos d s + moved) else d) ss d.

(* dtn_trim_nonactive_des, lib/dir.c:812-828 *)
Fixpoint trim_count (d : bytes) (k : nat) : nat :=
  match k with
  | O => O
  | S j => if de_isactive d j then k else trim_count d j
  end.

(* dtn_remove, lib/dir.c:830-844 with dtn_remove_de_name 781-790 *)
Definition dtn_remove (n : dnode) (s : nat) : dnode :=
  let nlen := de_name_len (dn_data n) s in
  let pos := de_name_pos (dn_data n) s in
  let (d1, punched) := dtn_punch n pos nlen in
  let n1 := with_nnb (with_data n d1) (dn_nnb n - nlen) in
  let d2 := de_write d1 s de_zero in
  let d3 := if punched then dtn_fixup (dslots n) d2 pos nlen else d2 in
  with_nde (with_data n1 d3) (Z.of_nat (trim_count d3 (Z.to_nat (dn_nde n)))).
