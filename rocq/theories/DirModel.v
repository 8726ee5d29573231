(* A directory: its inode fields and the hash tree of nodes hanging off it, lib/dir.c; the
   readdir stream with its FUSE consumer, lib/fuseq.c.

   Simplifications.  Nodes are staged by address from one store; reading a node never fails
   for I/O reasons.  A spawn takes its address from an oracle; None, or an address that is
   negative or already holds a node of this directory, stands for a failed allocation (that
   the allocator never does the latter is C17).  The name hash is an arbitrary function of
   the directory's seed and the name (dir_calc_namehash, lib/dir.c:1353-1376).  The UTF-8
   check (dir_check_utf8_name) and permission checks can only refuse a call early and are
   left out, as are inode size, block count and times.  An abort() is the outcome DFatal. *)
From Verif Require Import Base DirNodeModel.

Definition DTREE_DEPTH_MAX := 4.
Definition DTREE_INDEX_MAX := 16777216. (* 1 << 24 *)
Definition DIR_ENTRIES_MAX := 480 * DTREE_INDEX_MAX.

Inductive derr := DOk | DNoEnt | DNoSpc | DExist | DMLink | DInval | DNameTooLong | DCorrupt | DFatal.

(* ---- node indices ---- *)
(* dtn_index_to_parent, lib/dir.c:113-121 *)
Definition index_to_parent (i : Z) : Z := if i =? 1 then 0 else (i - 2) / 64 + 1.
(* dtn_index_to_child_ord, lib/dir.c:123-129 *)
Definition index_to_child_ord (i : Z) : Z := i - (index_to_parent i - 1) * 64 - 2.
(* child_dtn_index_of, lib/dir.c:131-136 *)
Definition child_index_of (p ord : Z) : Z := (p - 1) * 64 + ord + 2.
(* dtn_index_depth, lib/dir.c:138-148; an index is 64 bits and each round divides by 64 *)
Fixpoint index_depth_loop (fuel : nat) (i : Z) : Z :=
  match fuel with
  | O => 0
  | S k => if 1 <? i then 1 + index_depth_loop k (index_to_parent i) else 0
  end.
Definition index_depth (i : Z) : Z := index_depth_loop 12 i.
(* dtn_index_isvalid, lib/dir.c:107-111; dtn_index_valid_depth, lib/dir.c:155-167 *)
Definition index_isvalid (i : Z) : bool := (1 <=? i) && (i <=? DTREE_INDEX_MAX).
Definition index_valid_depth (i : Z) : bool := index_isvalid i && (index_depth i <=? DTREE_DEPTH_MAX).
(* hash_to_child_ord, lib/dir.c:169-183; silofs_expect_* abort in every build, panic.c:302-312 *)
Definition hash_to_child_ord (h depth : Z) : option Z :=
  if (0 <? depth) && (depth <? 8) && (depth <=? DTREE_DEPTH_MAX)
  then Some (Z.shiftr (u64 h) (6 * (depth - 1)) mod 64) else None.

(* ---- stream positions ---- *)
(* make_doffset, lib/dir.c:213-221 with encode_doffset 196-202 *)
Definition make_doffset (i : Z) (slot : Z) : Z :=
  Z.lor (Z.shiftl (Z.lor (Z.shiftl i 13) (Z.land slot 8191)) 2) 2.
(* doff_to_dtn_index, lib/dir.c:223-230 *)
Definition doff_to_index (doff : Z) : Z :=
  let i := Z.shiftr (u64 (Z.shiftr doff 2)) 13 in if i <=? DTREE_INDEX_MAX then i else 0.
(* doff_to_slot, lib/dir.c:232-239 *)
Definition doff_to_slot (doff : Z) : Z := Z.land (u64 (Z.shiftr doff 2)) 8191.

(* ---- the directory ---- *)
(* struct silofs_inode_dir, defs.h:848-856 *)
Record dirst := mkDir {
  d_seed : Z; d_root : Z; d_last : Z; d_ndents : Z; d_nlink : Z; d_nodes : Z -> option dnode }.
Definition set_node (st : dirst) (a : Z) (n : dnode) : dirst :=
  mkDir (d_seed st) (d_root st) (d_last st) (d_ndents st) (d_nlink st) (fset (d_nodes st) a (Some n)).
(* dir_inc_ndents 1157-1161, dir_dec_ndents 1163-1167, lib/dir.c *)
Definition set_ndents (st : dirst) (k : Z) : dirst :=
  mkDir (d_seed st) (d_root st) (d_last st) (u64 k) (d_nlink st) (d_nodes st).
Definition set_last (st : dirst) (i : Z) : dirst :=
  mkDir (d_seed st) (d_root st) (u32 i) (d_ndents st) (d_nlink st) (d_nodes st).
(* dir_set_tree_root, lib/dir.c:1183-1190 *)
Definition set_root (st : dirst) (a : Z) : dirst :=
  mkDir (d_seed st) a 1 (d_ndents st) (d_nlink st) (d_nodes st).
(* indr_setup, lib/dir.c:1134-1142 *)
Definition dir_setup (seed nlink : Z) (nodes : Z -> option dnode) : dirst := mkDir seed NULL_OFF 0 0 nlink nodes.
Definition new_dir (seed nlink : Z) : dirst := dir_setup seed nlink (fun _ => None).
(* the directory's half of dirc_update_nlink, lib/dir.c:1904-1929: a sub-directory counts; the
   child is a directory exactly when its entry says so (ii_dtype_of at insertion) *)
Definition DT_DIR := 4.
Definition update_nlink (st : dirst) (dt dif : Z) : dirst :=
  if dt =? DT_DIR
  then mkDir (d_seed st) (d_root st) (d_last st) (d_ndents st) (u64 (d_nlink st + dif)) (d_nodes st)
  else st.

(* indr_update_last_index, lib/dir.c:1078-1096, when adding *)
Definition last_index_add (cur i : Z) : Z := if (cur <? i) || (cur =? 0) then i else cur.

(* dtn_depth, lib/dir.c:555-560; dtn_child, lib/dir.c:505-509 *)
Definition dtn_depth (n : dnode) : Z := index_depth (dn_index n).
Definition dtn_child (n : dnode) (ord : Z) : Z := nth (Z.to_nat ord) (dn_child n) NULL_OFF.
(* dni_bind_child_at, lib/dir.c:979-991 *)
Definition bind_child (n : dnode) (a i : Z) : dnode :=
  let ord := index_to_child_ord i in
  let rebind := negb (dtn_child n ord =? NULL_OFF) in
  mkDn (dn_parent n) (dn_index n) (dn_nde n) (dn_nnb n)
       (if rebind then dn_nact n else u32 (dn_nact n + 1))
       (upd (dn_child n) (Z.to_nat ord) a) (dn_data n).

(* silofs_spawn_vnode as an oracle *)
Definition spawn (st : dirst) (orc : list (option Z)) : option Z * list (option Z) :=
  match orc with
  | Some a :: r => match d_nodes st a with
                   | None => if 0 <=? a then (Some a, r) else (None, r)
                   | Some _ => (None, r)
                   end
  | _ :: r => (None, r)
  | [] => (None, [])
  end.

(* dirc_spawn_setup_dnode, lib/dir.c:1583-1598 with dirc_update_isizeblocks 1569-1581 *)
Definition spawn_setup (st : dirst) (parent i : Z) (orc : list (option Z)) : option (Z * dirst) * list (option Z) :=
  match spawn st orc with
  | (None, r) => (None, r)
  | (Some a, r) => (Some (a, set_last (set_node st a (dtn_setup i parent)) (last_index_add (d_last st) i)), r)
  end.

Inductive lres := LFound (a : Z) (s : nat) | LErr (e : derr).

(* dirc_do_lookup_by_tree, lib/dir.c:1656-1687; rounds = number of depths left *)
Fixpoint lookup_loop (rounds : nat) (st : dirst) (a : Z) (n : dnode) (depth : Z) (name : bytes) (h : Z) : lres :=
  match rounds with
  | O => LErr DNoEnt
  | S k =>
    match dtn_search n name h with
    | Some s => LFound a s
    | None =>
      match hash_to_child_ord h (dtn_depth n + 1) with
      | None => LErr DFatal
      | Some ord =>
        let c := dtn_child n ord in
        if c =? NULL_OFF then LErr DNoEnt
        else match d_nodes st c with
             | None => LErr DCorrupt
             | Some cn => if depth + 1 =? dtn_depth cn
                          then lookup_loop k st c cn (depth + 1) name h
                          else LErr DCorrupt
             end
      end
    end
  end.

(* rounds of a loop "for (depth = d; depth <= 4; ++depth)" *)
Definition rounds_from (d : Z) : nat := Z.to_nat (DTREE_DEPTH_MAX + 1 - d).

(* dirc_check_self_and_name, lib/dir.c:1729-1743 *)
Definition check_name (name : bytes) : derr :=
  if zlen name =? 0 then DInval else if 255 <? zlen name then DNameTooLong else DOk.

(* dirc_check_and_lookup_by_name, lib/dir.c:1745-1763 with dirc_check_may_lookup 1701-1710,
   dirc_lookup_by_name 1712-1727 and dirc_stage_tree_root 1606-1617 *)
Definition lookup_dei (st : dirst) (name : bytes) (h : Z) : lres :=
  match check_name name with
  | DOk =>
    if d_ndents st =? 0 then LErr DNoEnt
    else if d_root st =? NULL_OFF then LErr DNoEnt
    else match d_nodes st (d_root st) with
         | None => LErr DCorrupt
         | Some n => lookup_loop (rounds_from (dtn_depth n)) st (d_root st) n (dtn_depth n) name h
         end
  | e => LErr e
  end.

(* dirc_do_add_to_tree, lib/dir.c:1945-1968 with dirc_add_to_dnode 1931-1943,
   dirc_require_child 1866-1880, dirc_do_spawn_bind_child 1825-1845, dirc_spawn_child 1807-1823,
   hash_to_child_dtn_index 185-192 and dni_check_child_depth 963-977 *)
Fixpoint add_loop (rounds : nat) (st : dirst) (a : Z) (n : dnode) (depth : Z)
    (name : bytes) (h ino dt : Z) (orc : list (option Z)) : derr * dirst :=
  match rounds with
  | O => (DNoSpc, st)
  | S k =>
    if dtn_may_insert n (zlen name)
    then (DOk, set_ndents (set_node st a (dtn_insert n name h ino dt)) (d_ndents st + 1))
    else
      match hash_to_child_ord h (dtn_depth n + 1) with
      | None => (DFatal, st)
      | Some ord =>
        let c := dtn_child n ord in
        if negb (c =? NULL_OFF) then
          match d_nodes st c with
          | None => (DCorrupt, st)
          | Some cn => if depth + 1 =? dtn_depth cn
                       then add_loop k st c cn (depth + 1) name h ino dt orc
                       else (DCorrupt, st)
          end
        else
          let i := child_index_of (dn_index n) ord in
          if negb (index_valid_depth i) then (DNoSpc, st)
          else match spawn_setup st a i orc with
               | (None, _) => (DNoSpc, st)
               | (Some (ca, st1), orc1) =>
                 let st2 := set_node st1 a (bind_child n ca i) in
                 match d_nodes st2 ca with
                 | None => (DCorrupt, st2)
                 | Some cn => if depth + 1 =? dtn_depth cn
                              then add_loop k st2 ca cn (depth + 1) name h ino dt orc1
                              else (DCorrupt, st2)
                 end
               end
      end
  end.

(* dirc_insert_dentry, lib/dir.c:1981-1992: count the new link once the entry is in *)
Definition finish_add (dt : Z) (r : derr * dirst) : derr * dirst :=
  match r with
  | (DOk, st) => (DOk, update_nlink st dt 1)
  | _ => r
  end.

(* dirc_do_add_dentry, lib/dir.c:1994-2008 with dirc_require_tree_root 1641-1652 and
   dirc_spawn_tree_root 1619-1634 *)
Definition add_dentry (st : dirst) (name : bytes) (h ino dt : Z) (orc : list (option Z)) : derr * dirst :=
  if negb (d_root st =? NULL_OFF) then
    match d_nodes st (d_root st) with
    | None => (DCorrupt, st)
    | Some n => finish_add dt (add_loop (rounds_from (dtn_depth n)) st (d_root st) n (dtn_depth n) name h ino dt orc)
    end
  else
    match spawn_setup st NULL_OFF 1 orc with
    | (None, _) => (DNoSpc, st)
    | (Some (a, st1), orc1) =>
      let st2 := set_root st1 a in
      match d_nodes st2 a with
      | None => (DCorrupt, st2)
      | Some n => finish_add dt (add_loop (rounds_from (dtn_depth n)) st2 a n (dtn_depth n) name h ino dt orc1)
      end
    end.

(* dirc_discard_recursively, lib/dir.c:2565-2583 with dirc_discard_tree_at 2549-2563,
   dirc_discard_childs_of 2523-2547 and dirc_discard_dnode 1882-1895; the last-index updates are
   overwritten by dirc_resetup_dir and left out.  None: error. *)
Fixpoint discard_childs (disc : (Z -> option dnode) -> Z -> option (Z -> option dnode))
    (cs : list Z) (nact : Z) (nodes : Z -> option dnode) : option (Z -> option dnode) :=
  match cs with
  | [] => Some nodes
  | c :: r =>
    if nact =? 0 then Some nodes
    else if c =? NULL_OFF then discard_childs disc r nact nodes
    else match disc nodes c with
         | None => None
         | Some nodes' => discard_childs disc r (u32 (nact - 1)) nodes'
         end
  end.
Fixpoint discard (fuel : nat) (nodes : Z -> option dnode) (a : Z) : option (Z -> option dnode) :=
  match fuel with
  | O => None
  | S k =>
    match nodes a with
    | None => None
    | Some n => match discard_childs (discard k) (dn_child n) (dn_nact n) nodes with
                | None => None
                | Some nodes' => Some (fset nodes' a None)
                end
    end
  end.

(* dirc_drop_tree, lib/dir.c:2593-2611 with dirc_resetup_dir 2585-2591; depths are at most 4 *)
Definition drop_tree (st : dirst) (seed : Z) : derr * dirst :=
  if d_root st =? NULL_OFF then (DOk, st)
  else match discard 8 (d_nodes st) (d_root st) with
       | None => (DCorrupt, st)
       | Some nodes => (DOk, dir_setup seed (d_nlink st) nodes)
       end.

(* dirc_do_remove_dentry, lib/dir.c:2678-2696 with dirc_do_erase_dentry 2642-2653 *)
Definition remove_dentry (st : dirst) (name : bytes) (h seed : Z) : derr * dirst :=
  match lookup_dei st name h with
  | LErr e => (e, st)
  | LFound a s =>
    match d_nodes st a with
    | None => (DCorrupt, st)
    | Some n =>
      let st1 := update_nlink (set_ndents (set_node st a (dtn_remove n s)) (d_ndents st - 1))
                              (de_dt (dn_data n) s) (-1) in
      if d_ndents st1 =? 0 then drop_tree st1 seed else (DOk, st1)
    end
  end.

Section Ops.
Variable hashf : Z -> bytes -> Z.

(* silofs_lookup_dentry, lib/dir.c:1790-1803, called by lookup_by_name, lib/namei.c:445-463 *)
Definition dir_lookup (st : dirst) (name : bytes) : derr * (Z * Z) :=
  match lookup_dei st name (hashf (d_seed st) name) with
  | LErr e => (e, (0, 0))
  | LFound a s => match d_nodes st a with
                  | None => (DCorrupt, (0, 0))
                  | Some n => (DOk, (de_ino (dn_data n) s, de_dt (dn_data n) s))
                  end
  end.

(* check_dir_can_add, lib/namei.c:562-581 (check_nodent 529-541, check_add_dentry 543-560),
   then do_add_dentry, lib/namei.c:608-625 *)
Definition dir_add (st : dirst) (name : bytes) (ino dt : Z) (orc : list (option Z)) : derr * dirst :=
  match dir_lookup st name with
  | (DOk, _) => (DExist, st)
  | (DNoEnt, _) => if d_ndents st <? DIR_ENTRIES_MAX
                   then add_dentry st name (hashf (d_seed st) name) ino dt orc
                   else (DMLink, st)
  | (e, _) => (e, st)
  end.

(* remove_dentry_of, lib/namei.c:1033-1050 *)
Definition dir_remove (st : dirst) (name : bytes) (seed : Z) : derr * dirst :=
  remove_dentry st name (hashf (d_seed st) name) seed.
End Ops.

(* silofs_dir_isempty, lib/dir.c:1219-1228 *)
Definition dir_isempty (st : dirst) : bool := negb (2 <? d_nlink st) && negb (0 <? d_ndents st).

(* ---- reading the directory ---- *)
(* struct silofs_readdir_info as passed to the actor; the end of the stream is a record with
   inode 0, position -1 and an empty name *)
Record rdi := mkRdi { rd_off : Z; rd_ino : Z; rd_dt : Z; rd_name : bytes }.

(* struct silofs_fuseq_diter, fuseq.c:352-365: the entry held back, bytes used so far and
   the entries written to the reply buffer, each with the position that follows it *)
Record diter := mkDi { di_cur : rdi; di_len : Z; di_out : list rdi }.
Definition no_rdi : rdi := mkRdi 0 0 0 [].

(* emit_direntonly 1460-1483, emit_direntplus 1485-1512, lib/fuseq.c: FUSE_NAME_OFFSET is 24,
   FUSE_NAME_OFFSET_DIRENTPLUS is 152, entries are padded to 8 bytes *)
Definition ent_size (plus : bool) (nlen : Z) : Z := ((if plus then 152 else 24) + nlen + 7) / 8 * 8.

(* filldir, lib/fuseq.c:1568-1582 with emit_dirent 1514-1540, update_dirent 1542-1556 and
   has_dirent 1558-1561; false: the actor failed *)
Definition filldir (bsz : Z) (plus : bool) (di : diter) (r : rdi) : diter * bool :=
  let cur := di_cur di in
  if (0 <? rd_ino cur) && (0 <? zlen (rd_name cur)) then
    let rem := bsz - di_len di in
    if (rem <=? zlen (rd_name cur)) || (rem <? ent_size plus (zlen (rd_name cur))) then (di, false)
    else (mkDi r (di_len di + ent_size plus (zlen (rd_name cur)))
               (di_out di ++ [mkRdi (rd_off r) (rd_ino cur) (rd_dt cur) (rd_name cur)]), true)
  else (mkDi r (di_len di) (di_out di), true).

(* struct silofs_dir_ctx: stream position, keep_iter, consumer *)
Record rctx := mkRc { rc_pos : Z; rc_keep : bool; rc_di : diter }.

Section Readdir.
Variables (st : dirst) (bsz : Z) (plus : bool).
(* inode numbers of the directory and of its parent; types are DT_DIR *)
Variables (self_ino parent_ino : Z).

(* dirc_emit, lib/dir.c:2093-2114 *)
Definition emit (c : rctx) (ino dt : Z) (name : bytes) : rctx :=
  let (di, ok) := filldir bsz plus (rc_di c) (mkRdi (rc_pos c) ino dt name) in
  mkRc (rc_pos c) ok di.

(* dtn_scan, lib/dir.c:670-689 with dtn_de_at_slot 662-668 and dtn_doffset_of 653-660 *)
Definition dtn_scan (n : dnode) (pos : Z) : option nat :=
  let slot := doff_to_slot pos in
  let from := if slot <? dn_nde n then Z.to_nat slot else Z.to_nat (dn_nde n) in
  find (fun s => de_isactive (dn_data n) s && (pos <=? make_doffset (dn_index n) (Z.of_nat s)))
       (seq from (Z.to_nat (dn_nde n) - from)).

(* dirc_iterate_node, lib/dir.c:2162-2190 with dirc_emit_dirent 2116-2135; every round but the
   last passes one more slot *)
Fixpoint iterate_node (fuel : nat) (c : rctx) (n : dnode) : rctx :=
  match fuel with
  | O => c
  | S k =>
    if negb (rc_keep c) then c
    else match dtn_scan n (rc_pos c) with
         | None => mkRc (make_doffset (dn_index n + 1) 0) (rc_keep c) (rc_di c)
         | Some s =>
           let c1 := emit (mkRc (make_doffset (dn_index n) (Z.of_nat s)) (rc_keep c) (rc_di c))
                          (de_ino (dn_data n) s) (de_dt (dn_data n) s) (de_name (dn_data n) s) in
           if rc_keep c1 then iterate_node k (mkRc (rc_pos c1 + 1) true (rc_di c1)) n else c1
         end
  end.

(* dirc_readdir_eos, lib/dir.c:2192-2199 *)
Definition readdir_eos (c : rctx) : rctx :=
  let c1 := emit (mkRc (-1) (rc_keep c) (rc_di c)) 0 0 [] in mkRc (rc_pos c1) false (rc_di c1).

Inductive sres := SNode (n : dnode) | SErr (e : derr).
(* dirc_stage_node_by_index, lib/dir.c:2229-2256 with dirc_do_stage_child_by_ord 2201-2214: the
   child orders on the way to an index, then the walk *)
Fixpoint index_path (fuel : nat) (i : Z) : list Z :=
  match fuel with
  | O => []
  | S k => index_path k (index_to_parent i) ++ [index_to_child_ord i]
  end.
Fixpoint walk_path (n : dnode) (ords : list Z) : sres :=
  match ords with
  | [] => SNode n
  | o :: r =>
    if o <? 64 then
      let c := dtn_child n o in
      if c =? NULL_OFF then SErr DNoEnt
      else match d_nodes st c with
           | None => SErr DCorrupt
           | Some cn => walk_path cn r
           end
    else SErr DNoEnt
  end.
Definition stage_by_index (root : dnode) (i : Z) : sres :=
  if DTREE_DEPTH_MAX <=? index_depth i then SErr DNoEnt
  else walk_path root (index_path (Z.to_nat (index_depth i)) i).

(* dirc_next_node, lib/dir.c:2258-2291 *)
Fixpoint skip_null (cs : list Z) (i : Z) : Z :=
  match cs with
  | [] => i
  | c :: r => if c =? NULL_OFF then skip_null r (i + 1) else i
  end.
Definition next_node (n : dnode) : option Z :=
  if dn_parent n =? NULL_OFF then Some (dn_index n + 1)
  else match d_nodes st (dn_parent n) with
       | None => None
       | Some p => Some (skip_null (skipn (Z.to_nat (index_to_child_ord (dn_index n) + 1)) (dn_child p)) (dn_index n + 1))
       end.

(* dirc_isindex_inrange, lib/dir.c:2068-2075 *)
Definition inrange (i : Z) : bool := if d_last st =? 0 then false else i <=? d_last st.

(* dirc_do_iterate_tree_nodes, lib/dir.c:2293-2323; each round moves to a higher index *)
Fixpoint iterate_tree (fuel : nat) (c : rctx) (root : dnode) (i : Z) : derr * rctx :=
  match fuel with
  | O => (DCorrupt, c)
  | S k =>
    if negb (rc_keep c) then (DOk, c)
    else if negb (inrange i) then (DOk, readdir_eos c)
    else match stage_by_index root i with
         | SErr DNoEnt => iterate_tree k c root (i + 1)
         | SErr e => (e, c)
         | SNode n =>
           let c1 := iterate_node (S (Z.to_nat (dn_nde n))) c n in
           match next_node n with
           | None => (DCorrupt, c1)
           | Some i1 => iterate_tree k c1 root i1
           end
         end
  end.

(* dirc_iterate, lib/dir.c:2357-2369 with dirc_iterate_tree 2336-2355 *)
Definition iterate (c : rctx) : derr * rctx :=
  if d_root st =? NULL_OFF then (DOk, readdir_eos c)
  else
    let i := doff_to_index (rc_pos c) in
    if negb (inrange i) then (DOk, readdir_eos c)
    else match d_nodes st (d_root st) with
         | None => (DCorrupt, c)
         | Some root =>
           let (e, c1) := iterate_tree (Z.to_nat (d_last st - i + 3)) c root i in
           match e with
           | DOk => if rc_keep c1 then (DOk, readdir_eos c1) else (DOk, c1)
           | _ => (e, c1)
           end
         end.

(* dirc_readdir_iter, lib/dir.c:2396-2408 with dirc_emit_meta 2381-2394 and dirc_inrange
   2077-2086 *)
Definition readdir (pos : Z) : derr * list rdi :=
  let c0 := mkRc pos true (mkDi no_rdi 0 []) in
  let c1 := if pos =? 0 then let c := emit c0 self_ino 4 [46] in mkRc 1 (rc_keep c) (rc_di c) else c0 in
  let ok1 := if pos =? 0 then rc_keep c1 else true in
  let c2 := if ok1 && (rc_pos c1 =? 1)
            then let c := emit c1 parent_ino 4 [46; 46] in mkRc 2 (rc_keep c) (rc_di c) else c1 in
  let ok2 := if ok1 && (rc_pos c1 =? 1) then rc_keep c2 else ok1 in
  if ok2 then
    if negb ((0 <=? rc_pos c2) && inrange (doff_to_index (rc_pos c2))) then (DOk, di_out (rc_di (readdir_eos c2)))
    else let (e, c3) := iterate c2 in (e, di_out (rc_di c3))
  else (DOk, di_out (rc_di c2)).
End Readdir.
