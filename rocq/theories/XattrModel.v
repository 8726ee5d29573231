(* Extended attributes, lib/xattr.c: byte-level attribute nodes and the eight node slots
   of an inode.  Permission checks (silofs_do_access) are C16's subject and taken as
   granted; the outcome of spawning a node is an oracle. *)
From Verif Require Import Base.

Definition XUNIT := 8.          (* sizeof(struct silofs_xattr_entry), defs.h:844-848 *)
Definition XA_NENTS := 504.     (* SILOFS_XATTR_NENTS: units in a node *)
Definition XA_VALUE_MAX := 2048. (* SILOFS_XATTR_VALUE_MAX *)
Definition XA_NAME_MAX := 255.  (* min(SILOFS_NAME_MAX, NAME_MAX), lib/xattr.c:645 *)
Definition XA_NSLOTS : nat := 8. (* ARRAY_SIZE(ix_vaddr) *)

(* struct silofs_xattr_node: xa_nents and the bytes of xe[] *)
Record xnode := mkXn { xn_nents : Z; xn_buf : bytes }.

(* xan_setup, lib/xattr.c:335-340 *)
Definition xan_setup : xnode := mkXn 0 (zrepeat 0 (XUNIT * XA_NENTS)).

(* xe_aligned_size, lib/xattr.c:87-92 *)
Definition xe_aligned (n : Z) : Z := XUNIT * ((n + XUNIT - 1) / XUNIT).
(* xe_calc_nents, lib/xattr.c:102-105 *)
Definition xe_calc_nents (nl vs : Z) : Z := 1 + (xe_aligned nl + xe_aligned vs) / XUNIT.

(* xe_name_len .. xe_value, lib/xattr.c:161-166; i is the unit index of the entry.
   Reads outside the node (undefined in C) give short lists here; the invariant of the
   proofs excludes them, the corrupted-node case is treated separately under C40. *)
Definition xe_name_len (b : bytes) (i : Z) : Z := le_dec (zsub (XUNIT * i) 2 b).
Definition xe_value_size (b : bytes) (i : Z) : Z := le_dec (zsub (XUNIT * i + 4) 4 b).
Definition xe_name (b : bytes) (i : Z) : bytes := zsub (XUNIT * (i + 1)) (xe_name_len b i) b.
Definition xe_value (b : bytes) (i : Z) : bytes :=
  zsub (XUNIT * (i + 1) + xe_aligned (xe_name_len b i)) (xe_value_size b i) b.
(* xe_nents, lib/xattr.c:175-178 *)
Definition xe_nents (b : bytes) (i : Z) : Z := xe_calc_nents (xe_name_len b i) (xe_value_size b i).

(* xe_has_name, lib/xattr.c:168-173 *)
Definition xe_has_name (b : bytes) (i : Z) (name : bytes) : bool :=
  (zlen name =? xe_name_len b i) && bytes_eqb (xe_name b i) name.

(* xe_search, lib/xattr.c:226-238; an entry is at least one unit, so XA_NENTS rounds of
   fuel never run out on a node of at most XA_NENTS units *)
Fixpoint xe_search (fuel : nat) (b : bytes) (itr fin : Z) (name : bytes) : option Z :=
  match fuel with
  | O => None
  | S k => if itr <? fin
           then if xe_has_name b itr name then Some itr
                else xe_search k b (itr + xe_nents b itr) fin name
           else None
  end.

(* xan_search, lib/xattr.c:358-369 *)
Definition xan_search (n : xnode) (name : bytes) : option Z :=
  if xe_calc_nents (zlen name) 0 <=? xn_nents n
  then xe_search (Z.to_nat XA_NENTS) (xn_buf n) 0 (xn_nents n) name else None.

(* xe_assign, lib/xattr.c:185-195 *)
Definition xe_assign (b : bytes) (i : Z) (name value : bytes) : bytes :=
  let b1 := zput b (XUNIT * i) (le_enc 2 (u16 (zlen name))) in
  let b2 := zput b1 (XUNIT * i + 4) (le_enc 4 (u32 (zlen value))) in
  let b3 := zput b2 (XUNIT * (i + 1)) name in
  zput b3 (XUNIT * (i + 1) + xe_aligned (zlen name)) value.

(* xan_insert, lib/xattr.c:371-384 *)
Definition xan_insert (n : xnode) (name value : bytes) : option xnode :=
  let tip := xn_nents n in
  if XA_NENTS - tip <? xe_calc_nents (zlen name) (zlen value) then None
  else let b := xe_assign (xn_buf n) tip name value in
       Some (mkXn (u16 (tip + xe_nents b tip)) b).

(* xan_remove, lib/xattr.c:386-393, with xe_squeeze 209-218 *)
Definition xan_remove (n : xnode) (i : Z) : xnode :=
  let b := xn_buf n in
  let next := i + xe_nents b i in
  let move := xn_nents n - next in
  let b1 := zput b (XUNIT * i) (zsub (XUNIT * next) (XUNIT * move) b) in
  let b2 := zput b1 (XUNIT * (i + move)) (zrepeat 0 (XUNIT * (next - i))) in
  mkXn (u16 (xn_nents n - xe_nents b i)) b2.

(* ---- an inode's attribute nodes ---- *)

(* A slot with its node: the cached copy, the copy on stable storage and the dirty flag. *)
Record xslot := mkSlot { s_mem : xnode; s_disk : xnode; s_dirty : bool }.
Definition xstate := list (option xslot).
(* silofs_setup_xattr, lib/xattr.c:495-498 *)
Definition xstate0 : xstate := repeat None XA_NSLOTS.

(* vni_dirtify on the node of a slot *)
Definition dirtify (s : xslot) : xslot := mkSlot (s_mem s) (s_disk s) true.
Definition with_mem (s : xslot) (n : xnode) : xslot := mkSlot n (s_disk s) (s_dirty s).

(* xac_lookup_entry_at_nodes, lib/xattr.c:716-731: slot and unit index of the entry *)
Fixpoint lookup_at (st : xstate) (slot : nat) (name : bytes) : option (nat * Z) :=
  match st with
  | [] => None
  | None :: r => lookup_at r (S slot) name
  | Some s :: r =>
    match xan_search (s_mem s) name with
    | Some i => Some (slot, i)
    | None => lookup_at r (S slot) name
    end
  end.
Definition lookup_entry (st : xstate) (name : bytes) := lookup_at st 0 name.

Inductive xerr := XOk | XExist | XNoData | XNoSpc | XInval | XNameTooLong | XRange.

(* xac_try_insert_at_nodes, lib/xattr.c:881-899, with xac_require_xanode 849-863,
   xac_spawn_bind_xanode 825-841 and xac_try_insert_at 865-879.  One oracle entry per
   spawn.  Result: error, new slots and the slot inserted into. *)
Fixpoint insert_at (st : xstate) (slot : nat) (name value : bytes) (orc : list bool)
  : xerr * xstate * nat :=
  match st with
  | [] => (XNoSpc, [], slot)
  | Some s :: r =>
    match xan_insert (s_mem s) name value with
    | Some n => (XOk, Some (dirtify (with_mem s n)) :: r, slot)
    | None => let '(e, r', j) := insert_at r (S slot) name value orc in (e, Some s :: r', j)
    end
  | None :: r =>
    match orc with
    | true :: orc' =>
      let s := mkSlot xan_setup xan_setup true in
      match xan_insert (s_mem s) name value with
      | Some n => (XOk, Some (dirtify (with_mem s n)) :: r, slot)
      | None => let '(e, r', j) := insert_at r (S slot) name value orc' in (e, Some s :: r', j)
      end
    | _ => (XNoSpc, None :: r, slot)
    end
  end.

Inductive xflag := XFNone | XFCreate | XFReplace.

(* apply f to the node of a slot *)
Definition at_slot (st : xstate) (i : nat) (f : xslot -> xslot) : xstate :=
  match nth_error st i with
  | Some (Some s) => upd st i (Some (f s))
  | _ => st
  end.

(* xac_setxattr_replace, lib/xattr.c:938-954: insert the new entry, discard the old one
   from the cached node it was found in, then mark dirty the node of the *new* entry
   (xei was overwritten by the insertion). *)
Definition set_replace (st : xstate) (name value : bytes) (i : nat) (xe : Z) (orc : list bool)
  : xerr * xstate :=
  let '(e, st1, j) := insert_at st 0 name value orc in
  match e with
  | XOk =>
    let st2 := at_slot st1 i (fun s => with_mem s (xan_remove (s_mem s) xe)) in
    (XOk, at_slot st2 j dirtify)
  | _ => (e, st1)
  end.

(* xac_setxattr_do_apply_on, lib/xattr.c:956-973 with xac_setxattr_create 914-931 *)
Definition set_apply (st : xstate) (name value : bytes) (fl : xflag) (orc : list bool)
  : xerr * xstate :=
  let ins := let '(e, st1, _) := insert_at st 0 name value orc in (e, st1) in
  match fl, lookup_entry st name with
  | XFCreate, Some _ => (XExist, st)
  | XFCreate, None => ins
  | XFReplace, None => (XNoData, st)
  | _, Some (i, xe) => set_replace st name value i xe orc
  | XFNone, None => ins
  end.

(* s_xattr_prefix, lib/xattr.c:77-83: "security." "system." "trusted." need the ACL mount
   option for writing, "gnu." is disabled *)
Definition pfx_security : bytes := [115; 101; 99; 117; 114; 105; 116; 121; 46].
Definition pfx_system : bytes := [115; 121; 115; 116; 101; 109; 46].
Definition pfx_trusted : bytes := [116; 114; 117; 115; 116; 101; 100; 46].
Definition pfx_gnu : bytes := [103; 110; 117; 46].

(* has_xattr_prefix, lib/xattr.c:604-617 *)
Definition has_prefix (name pfx : bytes) : bool :=
  (zlen pfx <? zlen name) && bytes_eqb (ztake (zlen pfx) name) pfx.

(* xac_check_xattr_name, lib/xattr.c:640-664; the search order cannot matter: no prefix
   is a prefix of another *)
Definition check_name (acl w : bool) (name : bytes) : xerr :=
  if XA_NAME_MAX <? zlen name then XNameTooLong
  else if w && has_prefix name pfx_gnu then XInval
  else if w && negb acl && (has_prefix name pfx_security || has_prefix name pfx_system ||
                            has_prefix name pfx_trusted) then XInval
  else XOk.

(* xac_check_op, lib/xattr.c:666-690 *)
Definition check_op (acl w : bool) (name : bytes) (size : Z) : xerr :=
  match check_name acl w name with
  | XOk => if XA_VALUE_MAX <? size then XInval else XOk
  | e => e
  end.

(* silofs_do_setxattr, lib/xattr.c:1036-1054 *)
Definition do_setxattr (acl : bool) (st : xstate) (name value : bytes) (fl : xflag) (orc : list bool)
  : xerr * xstate :=
  match check_op acl true name (zlen value) with
  | XOk => set_apply st name value fl orc
  | e => (e, st)
  end.

(* silofs_do_getxattr, lib/xattr.c:788-803: error, reported size, bytes copied *)
Definition do_getxattr (acl : bool) (st : xstate) (name : bytes) (cap : Z) : xerr * Z * bytes :=
  match check_op acl false name 0 with
  | XOk =>
    match lookup_entry st name with
    | None => (XNoData, 0, [])
    | Some (i, xe) =>
      match nth_error st i with
      | Some (Some s) =>
        let b := xn_buf (s_mem s) in
        let size := xe_value_size b xe in
        if cap =? 0 then (XOk, size, [])
        else if cap <? size then (XRange, size, [])
        else (XOk, size, ztake cap (xe_value b xe))
      | _ => (XNoData, 0, [])
      end
    end
  | e => (e, 0, [])
  end.

(* "system.posix_acl_access" / "system.posix_acl_default", lib/xattr.c:1073-1089 *)
Definition acl_access : bytes :=
  [115;121;115;116;101;109;46;112;111;115;105;120;95;97;99;108;95;97;99;99;101;115;115].
Definition acl_default : bytes :=
  [115;121;115;116;101;109;46;112;111;115;105;120;95;97;99;108;95;100;101;102;97;117;108;116].

(* silofs_do_removexattr, lib/xattr.c:1115-1127 *)
Definition do_removexattr (acl : bool) (st : xstate) (name : bytes) : xerr * xstate :=
  match check_op acl true name 0 with
  | XOk =>
    match lookup_entry st name with
    | None => (if bytes_eqb name acl_access || bytes_eqb name acl_default then XOk else XNoData, st)
    | Some (i, xe) =>
      (XOk, at_slot (at_slot st i (fun s => with_mem s (xan_remove (s_mem s) xe))) i dirtify)
    end
  | e => (e, st)
  end.

(* xac_emit_range, lib/xattr.c:1143-1154 *)
Fixpoint emit_range (fuel : nat) (b : bytes) (itr fin : Z) : list bytes :=
  match fuel with
  | O => []
  | S k => if itr <? fin then xe_name b itr :: emit_range k b (itr + xe_nents b itr) fin else []
  end.

(* silofs_do_listxattr, lib/xattr.c:1248-1259; the caller's buffer (actor) accepts all *)
Definition do_listxattr (st : xstate) : list bytes :=
  flat_map (fun o => match o with
                     | None => []
                     | Some s => emit_range (Z.to_nat XA_NENTS) (xn_buf (s_mem s)) 0 (xn_nents (s_mem s))
                     end) st.

(* Flush writes every dirty node; eviction drops the cached copy of a clean node, so the
   next access sees the stored copy (lib/flush.c, lib/lcache.c). *)
Definition flush_slot (o : option xslot) : option xslot :=
  option_map (fun s => if s_dirty s then mkSlot (s_mem s) (s_mem s) false else s) o.
Definition do_flush (st : xstate) : xstate := map flush_slot st.
Definition evict_slot (s : xslot) : xslot := if s_dirty s then s else mkSlot (s_disk s) (s_disk s) false.
Definition do_evict (st : xstate) (i : nat) : xstate := at_slot st i evict_slot.
