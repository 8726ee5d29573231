(* Data of regular files (lib/file.c): the leaves held in the inode and in the mapping tree,
   reading, writing, truncation, fallocate, seeking for data and holes, and copying of ranges.

   Simplifications.
   - Space and cache are reduced to what lib/file.c can see of them: an object is allocated or
     not; a data leaf has its bytes, its number of owners and a not-yet-written mark (the
     allocator and these marks are the subject of SpaceModel.v); staging an object gives its
     current bytes or fails.  Bytes of a leaf are a function of the index in the leaf.
   - One file-system volume; which part of it is shared with a snapshot is not modelled, only
     the answer of silofs_sbi_ismutable_laddr, taken from a list.
   - Every step which can fail takes its outcome from a list of codes (0 or list empty:
     success); a claimed address and the bytes which happen to be there come from another list.
   - The inode is a regular file which is open in a fitting mode, without O_SYNC; buffers are
     plain memory (silofs_do_read, silofs_do_write); times, attributes and reference counts of
     cached objects are left out; the task is never interrupted.
   - Bad stands for a failed assertion, a null pointer or a loop which does not end in the
     number of rounds given to it. *)
From Verif Require Import Base AddrModel.

(* ---- constants, include/silofs/defs.h:239-267,311 ---- *)
Definition HEAD1_LEAF := 1024.
Definition HEAD1_N := 4.
Definition HEAD2_LEAF := 4096.
Definition HEAD2_N := 15.
Definition TREE_LEAF := 65536.
Definition MAP_SHIFT := 10.
Definition NODE_N := 1024.
Definition F_HEIGHT_MAX := 5.
Definition FILE_SIZE_MAX := 2 ^ 56 - 1.
Definition IO_SIZE_MAX := 2 ^ 21 - 65536.
Definition LONG_MAX := 2 ^ 63 - 1.
Definition ENOENT := 2.
Definition ENXIO := 6.
Definition EINVAL := 22.
Definition EFBIG := 27.
Definition ENOSPC := 28.
Definition EOVERFLOW := 75.
Definition EOPNOTSUPP := 95.
Definition EFSCORR := 117.

(* ---- state ---- *)

(* a data leaf (struct silofs_data_block1/4/64) with its state in the space maps *)
Record blk := mkBlk { b_data : Z -> Z; b_ref : Z; b_unwr : bool }.
(* struct silofs_ftree_node *)
Record ftn := mkFtn { n_ref : Z; n_ino : Z; n_beg : Z; n_end : Z; n_height : Z; n_ctype : Z;
                      n_nact : Z; n_child : Z -> Z }.
(* struct silofs_inode_file (f_slots: null, or type and offset), flag SILOFS_INODEF_FTYPE2,
   i_size, i_span, i_blocks *)
Record finode := mkFi { fi_ty2 : bool; fi_slot : Z -> option (Z * Z); fi_size : Z; fi_span : Z; fi_blocks : Z }.
Record world := mkW { w_ino : Z -> finode; w_node : Z -> option ftn; w_blk : Z -> Z -> option blk }.
(* s_fail, s_new, s_mut: outcomes, addresses to be claimed with what is there, and answers of
   silofs_sbi_ismutable_laddr *)
Record st := mkSt { s_w : world; s_fail : list Z; s_new : list (Z * (Z -> Z)); s_mut : list bool }.

Inductive res (A : Type) := Ok (a : A) | Err (e : Z) | Bad.
Arguments Ok {A}. Arguments Err {A}. Arguments Bad {A}.
Definition M (A : Type) := st -> st * res A.
Definition ret {A} (a : A) : M A := fun s => (s, Ok a).
Definition fail {A} (e : Z) : M A := fun s => (s, Err e).
Definition bad {A} : M A := fun s => (s, Bad).
Definition bind {A B} (m : M A) (k : A -> M B) : M B := fun s =>
  match m s with
  | (s', Ok a) => k a s'
  | (s', Err e) => (s', Err e)
  | (s', Bad) => (s', Bad)
  end.
Notation "x <- m ;; k" := (bind m (fun x => k)) (at level 100, m at next level, right associativity).
Notation "m ;;; k" := (bind m (fun _ => k)) (at level 100, right associativity).

Definition set_w (s : st) (w : world) : st := mkSt w (s_fail s) (s_new s) (s_mut s).
Definition set_ino (w : world) (i : Z) (f : finode) : world := mkW (fset (w_ino w) i f) (w_node w) (w_blk w).
Definition set_node (w : world) (a : Z) (n : option ftn) : world := mkW (w_ino w) (fset (w_node w) a n) (w_blk w).
Definition set_blk (w : world) (t a : Z) (b : option blk) : world :=
  mkW (w_ino w) (w_node w) (fun t' => if t' =? t then fset (w_blk w t) a b else w_blk w t').

(* any call into the lower layers which can fail *)
Definition may_fail : M unit := fun s =>
  match s_fail s with
  | [] => (s, Ok tt)
  | e :: r => (mkSt (s_w s) r (s_new s) (s_mut s), if e =? 0 then Ok tt else Err e)
  end.
(* the current inode of a context *)
Definition the_ino (i : Z) : M finode := fun s => (s, Ok (w_ino (s_w s) i)).
Definition put_ino (i : Z) (f : finode) : M unit := fun s => (set_w s (set_ino (s_w s) i f), Ok tt).
(* a tree node already in the cache *)
Definition the_node (a : Z) : M ftn := fun s =>
  match w_node (s_w s) a with Some n => (s, Ok n) | None => (s, Bad) end.
Definition put_node (a : Z) (n : ftn) : M unit := fun s => (set_w s (set_node (s_w s) a (Some n)), Ok tt).
Definition the_blk (t a : Z) : M blk := fun s =>
  match w_blk (s_w s) t a with Some b => (s, Ok b) | None => (s, Bad) end.
Definition put_blk (t a : Z) (b : option blk) : M unit := fun s => (set_w s (set_blk (s_w s) t a b), Ok tt).

(* ---- services of the lower layers ---- *)

Definition isdatabk (t : Z) : bool := t =? LT_DATABK.
(* silofs_claim_vspace, lib/claim.c:407-414: an unused place, of one owner, marked unwritten *)
Definition claim_vspace (t : Z) : M Z :=
  may_fail ;;;
  (fun s => match s_new s with
            | [] => (s, Err ENOSPC)
            | (a, d) :: r =>
              let s1 := mkSt (s_w s) (s_fail s) r (s_mut s) in
              match w_blk (s_w s) t a with
              | None => if (0 <=? a) && (a mod ltype_size t =? 0)
                        then (set_w s1 (set_blk (s_w s) t a (Some (mkBlk d 1 true))), Ok a)
                        else (s1, Err ENOSPC)
              | Some _ => (s1, Err ENOSPC)
              end
            end).
(* silofs_spawn_vnode of a tree node, lib/vstage.c:2764-2775 *)
Definition spawn_ftnode (n : ftn) : M Z :=
  may_fail ;;;
  (fun s => match s_new s with
            | [] => (s, Err ENOSPC)
            | (a, _) :: r =>
              let s1 := mkSt (s_w s) (s_fail s) r (s_mut s) in
              match w_node (s_w s) a with
              | None => if (0 <=? a) && (a mod ltype_size LT_FTNODE =? 0)
                        then (set_w s1 (set_node (s_w s) a (Some n)), Ok a)
                        else (s1, Err ENOSPC)
              | Some _ => (s1, Err ENOSPC)
              end
            end).
(* silofs_reclaim_vspace, lib/claim.c:546-553, and silofs_remove_vnode_at, lib/vstage.c:2900-2913:
   one owner less; without owners the place is free *)
Definition reclaim_vspace (t a : Z) : M unit :=
  may_fail ;;;
  b <- the_blk t a ;;
  put_blk t a (if isdatabk t && (1 <? b_ref b) then Some (mkBlk (b_data b) (b_ref b - 1) (b_unwr b)) else None).
(* silofs_addref_vspace, lib/claim.c:570-586 *)
Definition addref_vspace (t a : Z) : M unit :=
  may_fail ;;; b <- the_blk t a ;; put_blk t a (Some (mkBlk (b_data b) (b_ref b + 1) (b_unwr b))).
(* silofs_test_unwritten_at, lib/super.c:864-876, silofs_clear_unwritten_at 878-890,
   silofs_mark_unwritten_at 892-904, silofs_test_last_allocated 906-918, silofs_test_shared_dbkref
   920-938; silofs_test_last_allocated of a small leaf gives an answer which is not used *)
Definition test_unwritten (t a : Z) : M bool := may_fail ;;; b <- the_blk t a ;; ret (b_unwr b).
Definition set_unwritten (v : bool) (t a : Z) : M unit :=
  may_fail ;;; b <- the_blk t a ;; put_blk t a (Some (mkBlk (b_data b) (b_ref b) v)).
Definition test_last (t a : Z) : M bool := may_fail ;;; b <- the_blk t a ;; ret (b_ref b =? 1).
Definition test_shared (t a : Z) : M bool :=
  if isdatabk t then may_fail ;;; b <- the_blk t a ;; ret (1 <? b_ref b) else ret false.
(* filc_require_mut_vaddr, lib/file.c:925-932 *)
Definition require_mut : M unit := may_fail.
(* filc_stage_fileaf, lib/file.c:1438-1458 *)
Definition stage_fileaf (t a : Z) : M blk := may_fail ;;; the_blk t a.
(* filc_test_ismutable_by, lib/file.c:4375-4380, of a resolved address *)
Definition test_mutable : M bool := fun s =>
  match s_mut s with
  | [] => (s, Ok true)
  | v :: r => (mkSt (s_w s) (s_fail s) (s_new s) r, Ok v)
  end.

(* ---- offsets ---- *)

Definition off_clamp (a b c : Z) : Z := Z.min (Z.max a b) c.
Definition off_within (off beg end_ : Z) : bool := (beg <=? off) && (off <? end_).
Definition off_in_data (off t : Z) : Z := Z.rem off (ltype_size t).
Definition len_to_next (off t : Z) : Z := off_next off (ltype_size t) - off.
Definition len_of_data (off end_ t : Z) : Z :=
  let next := off_next off (ltype_size t) in if next <? end_ then next - off else end_ - off.
Definition off_is_partial (off end_ t : Z) : bool :=
  negb (off =? off_align off (ltype_size t)) || (end_ - off <? ltype_size t).
Definition head1_end_of (slot : Z) : Z := (slot + 1) * HEAD1_LEAF.
Definition head1_max : Z := head1_end_of (HEAD1_N - 1).
Definition head2_end_of (slot : Z) : Z := head1_max + (slot + 1) * HEAD2_LEAF.
Definition head2_max : Z := head2_end_of (HEAD2_N - 1).
Definition is_head1 (off : Z) : bool := off_within off 0 head1_max.
Definition is_head2 (off : Z) : bool := off_within off head1_max head2_max.
Definition head1_slot (off : Z) : Z := Z.quot off HEAD1_LEAF.
Definition head2_slot (off : Z) : Z := Z.quot (off - head1_max) HEAD2_LEAF.
Definition leaf_slot (off : Z) : Z := Z.rem (Z.quot off TREE_LEAF) NODE_N.
(* off_to_tree_height, lib/file.c:239-255; an offset has at most 63 bits: 6 rounds *)
Fixpoint height_loop (f : nat) (x h : Z) : Z :=
  match f with
  | O => h
  | S k => if 0 <? x then height_loop k (Z.shiftr x MAP_SHIFT) (h + 1) else h
  end.
Definition tree_height (off : Z) : Z :=
  if TREE_LEAF <? off then height_loop 7 (Z.shiftr (Z.quot off TREE_LEAF) MAP_SHIFT) 2 else 2.
(* ft_height_isbottom, lib/file.c:257-263: a height outside 1..5 is fatal (silofs_expect_ge,
   silofs_expect_le) *)
Definition height_legal (n : ftn) : bool := (1 <=? n_height n) && (n_height n <=? F_HEIGHT_MAX).
Definition isbottom (n : ftn) : M bool := if height_legal n then ret (n_height n <=? 2) else bad.

(* ---- tree nodes ---- *)

Definition n_span (n : ftn) : Z := n_end n - n_beg n.
(* ftn_nbytes_per_slot, lib/file.c:471-474, ftn_slot_by_file_pos 476-497 *)
Definition nbytes_per_slot (n : ftn) : Z := Z.quot (n_span n) NODE_N.
Definition slot_of (n : ftn) (pos : Z) : Z :=
  Z.quot (Z.shiftr (pos - n_beg n) MAP_SHIFT * NODE_N) (Z.shiftr (n_span n) MAP_SHIFT).
Definition has_child (n : ftn) (slot : Z) : bool := negb (off_isnull (n_child n slot)).
(* fni_resolve_child_by_slot, lib/file.c:865-871 *)
Definition child_at (n : ftn) (slot : Z) : option (Z * Z) :=
  if has_child n slot then Some (n_ctype n, n_child n slot) else None.
Definition n_inrange (n : ftn) (pos : Z) : bool := off_within pos (n_beg n) (n_end n).
(* ftn_child_ltype_by_height, lib/file.c:563-573, ftn_span_by_height 575-588, ftn_calc_range 590-597 *)
Definition ctype_by_height (h : Z) : Z := if h <=? 2 then LT_DATABK else LT_FTNODE.
Definition span_by_height (h : Z) : Z :=
  if (1 <? h) && (h <=? F_HEIGHT_MAX) then Z.shiftl TREE_LEAF ((h - 1) * MAP_SHIFT) else LONG_MAX.
Definition calc_beg (off h : Z) : Z := off_align off (span_by_height h).
(* ftn_file_pos, lib/file.c:599-606, ftn_next_file_pos 608-616 *)
Definition n_file_pos (n : ftn) (slot : Z) : Z := off_align (n_beg n + slot * nbytes_per_slot n) LBK_SIZE.
Definition n_next_pos (n : ftn) (slot : Z) : Z := n_file_pos n slot + nbytes_per_slot n.
(* ftn_init_by, lib/file.c:641-651 *)
Definition ftn_init (i off h : Z) : ftn :=
  mkFtn 0 i (calc_beg off h) (calc_beg off h + span_by_height h) h (ctype_by_height h) 0 (fun _ => OFF_NULL).
(* fni_assign_child_at, lib/file.c:801-822 *)
Definition assign_child (n : ftn) (slot voff : Z) : ftn :=
  let d := if has_child n slot then (if off_isnull voff then -1 else 0) else (if off_isnull voff then 0 else 1) in
  mkFtn (n_ref n) (n_ino n) (n_beg n) (n_end n) (n_height n) (n_ctype n) (n_nact n + d)
        (fset (n_child n) slot (if off_isnull voff then OFF_NULL else voff)).
(* fni_clear_subtree_mappings, lib/file.c:849-856 *)
Definition clear_child (n : ftn) (slot : Z) : ftn :=
  if has_child n slot then assign_child n slot OFF_NULL else n.
Definition set_nref (n : ftn) (r : Z) : ftn :=
  mkFtn r (n_ino n) (n_beg n) (n_end n) (n_height n) (n_ctype n) (n_nact n) (n_child n).

(* ---- the inode ---- *)

Definition head1_abs (slot : Z) : Z := 1 + HEAD2_N + slot.
Definition head2_abs (slot : Z) : Z := 1 + slot.
Definition fi_set_slot (f : finode) (k : Z) (v : option (Z * Z)) : finode :=
  mkFi (fi_ty2 f) (fset (fi_slot f) k v) (fi_size f) (fi_span f) (fi_blocks f).
Definition fi_set_blocks (f : finode) (b : Z) : finode := mkFi (fi_ty2 f) (fi_slot f) (fi_size f) (fi_span f) b.
Definition fi_set_size (f : finode) (size span : Z) : finode := mkFi (fi_ty2 f) (fi_slot f) size span (fi_blocks f).
(* infl_setup, lib/file.c:728-739 *)
Definition fi_new (ty2 : bool) : finode := mkFi ty2 (fun _ => None) 0 0 0.
(* recalc_iblocks, lib/inode.c:1343-1356, silofs_ii_update_iblocks 1358-1369 *)
Definition update_iblocks (i t dif : Z) : M unit :=
  f <- the_ino i ;; put_ino i (fi_set_blocks f (fi_blocks f + ltype_nkbs t * dif)).
(* ii_stat_blocks, lib/inode.c:1047-1055 *)
Definition stat_blocks (f : finode) : Z := (fi_blocks f * KB_SIZE + 511) / 512.

(* ---- references to leaves ---- *)

(* HD1, HD2: leaves in the inode; TREE *)
Inductive kind := HD1 | HD2 | TREE.
(* struct silofs_fileaf_ref; the parent by its address; fl_laddr: laddr has been resolved *)
Record flref := mkFl { fl_addr : option (Z * Z); fl_parent : option Z; fl_pos : Z; fl_slot : Z; fl_leaf : Z;
                       fl_kind : kind; fl_partial : bool; fl_shared : bool; fl_laddr : bool }.
Definition has_data (r : flref) : bool := match fl_addr r with Some _ => true | None => false end.
(* kind of place of an offset *)
Definition kind_of (ty2 : bool) (off : Z) : kind :=
  if negb ty2 && is_head1 off then HD1 else if negb ty2 && is_head2 off then HD2 else TREE.
(* filc_curr_data_ltype, lib/file.c:1157-1168 *)
Definition kind_ltype (k : kind) : Z := match k with HD1 => LT_DATA1K | HD2 => LT_DATA4K | TREE => LT_DATABK end.
Definition cur_ltype (ty2 : bool) (off : Z) : Z := kind_ltype (kind_of ty2 off).
(* flref_setup, lib/file.c:954-989 *)
Definition flref_setup (ty2 : bool) (parent : option Z) (a : option (Z * Z)) (pos io_end : Z) : flref :=
  let k := kind_of ty2 pos in
  let slot := match k with HD1 => head1_slot pos | HD2 => head2_slot pos | TREE => leaf_slot pos end in
  mkFl a parent pos slot (ltype_size (kind_ltype k)) k (off_is_partial pos io_end (kind_ltype k)) false false.
Definition fl_set_addr (r : flref) (a : option (Z * Z)) : flref :=
  mkFl a (fl_parent r) (fl_pos r) (fl_slot r) (fl_leaf r) (fl_kind r) (fl_partial r) (fl_shared r) (fl_laddr r).
Definition fl_set_partial (r : flref) (v : bool) : flref :=
  mkFl (fl_addr r) (fl_parent r) (fl_pos r) (fl_slot r) (fl_leaf r) (fl_kind r) v (fl_shared r) (fl_laddr r).
Definition fl_set_shared (r : flref) (v : bool) : flref :=
  mkFl (fl_addr r) (fl_parent r) (fl_pos r) (fl_slot r) (fl_leaf r) (fl_kind r) (fl_partial r) v (fl_laddr r).
Definition fl_set_laddr (r : flref) (v : bool) : flref :=
  mkFl (fl_addr r) (fl_parent r) (fl_pos r) (fl_slot r) (fl_leaf r) (fl_kind r) (fl_partial r) (fl_shared r) v.

(* absolute slot in the inode of a head leaf *)
Definition head_abs (k : kind) (slot : Z) : Z := match k with HD1 => head1_abs slot | HD2 => head2_abs slot | TREE => 0 end.
Definition head_slot (k : kind) (off : Z) : Z := match k with HD1 => head1_slot off | HD2 => head2_slot off | TREE => 0 end.
(* filc_has_head1_leaves_io, lib/file.c:1051-1055, filc_has_head2_leaves_io 1057-1061 *)
Definition has_head_io (k : kind) (ty2 : bool) (off end_ : Z) : bool :=
  negb ty2 && (off <? end_) && match k with HD1 => is_head1 off | HD2 => is_head2 off | TREE => false end.
(* filc_resolve_head1_leaf, lib/file.c:1078-1087, filc_resolve_head2_leaf 1111-1120 *)
Definition resolve_head (k : kind) (i off end_ : Z) : M flref :=
  f <- the_ino i ;; ret (flref_setup (fi_ty2 f) None (fi_slot f (head_abs k (head_slot k off))) off end_).
(* filc_advance_to, lib/file.c:1178-1181, filc_advance_to_next 1199-1202 *)
Definition adv_to (off end_ x : Z) : Z := off_clamp off x end_.
Definition adv_next (ty2 : bool) (off end_ : Z) : Z := adv_to off end_ (off + len_to_next off (cur_ltype ty2 off)).

(* filc_tree_root_of, lib/file.c:1131-1137, filc_has_tree_root 1139-1145 *)
Definition has_root (f : finode) : bool := match fi_slot f 0 with Some (t, _) => t =? LT_FTNODE | None => false end.
(* filc_recheck_fni, lib/file.c:1497-1522, filc_stage_tree_node 1524-1545 *)
Definition stage_node (i : Z) (v : option (Z * Z)) : M Z :=
  match v with
  | None => fail ENOENT
  | Some (_, a) => may_fail ;;; n <- the_node a ;;
                   if negb (n_ino n =? i) then fail EFSCORR
                   else if (n_height n <? 2) || (16 <? n_height n) then fail EFSCORR else ret a
  end.
Definition stage_root (i : Z) : M Z := f <- the_ino i ;; stage_node i (fi_slot f 0).
(* filc_resolve_child, lib/file.c:1023-1036, without a parent a null leaf *)
Definition resolve_tree_leaf (i : Z) (parent : option Z) (off end_ : Z) : M flref :=
  f <- the_ino i ;;
  match parent with
  | None => ret (flref_setup (fi_ty2 f) None None off end_)
  | Some a => n <- the_node a ;; ret (flref_setup (fi_ty2 f) (Some a) (child_at n (slot_of n off)) off end_)
  end.

(* ---- reading ---- *)

(* filc_do_stage_by_tree_from, lib/file.c:1822-1844 *)
Fixpoint stage_from (h : nat) (i off a : Z) : M Z :=
  match h with
  | O => fail EFSCORR
  | S k => n <- the_node a ;;
           bot <- isbottom n ;;
           if bot then ret a
           else c <- stage_node i (child_at n (slot_of n off)) ;; stage_from k i off c
  end.
(* filc_stage_by_tree, lib/file.c:1858-1880 *)
Definition stage_by_tree (i off : Z) : M Z :=
  f <- the_ino i ;;
  if negb (has_root f) then fail ENOENT
  else r <- stage_root i ;; n <- the_node r ;;
       if negb (n_inrange n off) then fail ENOENT else stage_from (Z.to_nat (n_height n)) i off r.
(* err && err != ENOENT: go on without a node *)
Definition or_none {A} (m : M A) : M (option A) := fun s =>
  match m s with
  | (s', Ok a) => (s', Ok (Some a))
  | (s', Err e) => if e =? ENOENT then (s', Ok None) else (s', Err e)
  | (s', Bad) => (s', Bad)
  end.
Definition bytes_of (d : Z -> Z) (from len : Z) : bytes := map (fun k => d (from + Z.of_nat k)) (seq 0 (Z.to_nat len)).
(* filc_update_unwritten_by, lib/file.c:1407-1415 *)
Definition unwritten_of (r : flref) : M bool :=
  match fl_addr r with None => ret true | Some (t, a) => test_unwritten t a end.
(* filc_read_from_leaf, lib/file.c:1912-1940, with filc_iovec_by_fileaf, lib/file.c:892-911,
   filc_iovec_by_nilbk 913-921 *)
Definition read_from_leaf (ty2 : bool) (r : flref) (off end_ : Z) : M bytes :=
  u <- unwritten_of r ;;
  if u then ret (zrepeat 0 (len_of_data off end_ (cur_ltype ty2 off)))
  else match fl_addr r with
       | None => ret (zrepeat 0 (len_of_data off end_ (cur_ltype ty2 off)))
       | Some (t, a) =>
         ob <- or_none (stage_fileaf t a) ;;
         match ob with
         | None => ret (zrepeat 0 (len_of_data off end_ (cur_ltype ty2 off)))
         | Some b => ret (bytes_of (b_data b) (off_in_data off t) (len_of_data off end_ t))
         end
       end.
(* filc_read_by_heads, lib/file.c:1994-2017: the loop of one kind of head leaf *)
Fixpoint read_heads (f : nat) (k : kind) (i off end_ : Z) (acc : bytes) : M (Z * bytes) :=
  match f with
  | O => bad
  | S f' =>
    fi <- the_ino i ;;
    if has_head_io k (fi_ty2 fi) off end_
    then r <- resolve_head k i off end_ ;; d <- read_from_leaf (fi_ty2 fi) r off end_ ;;
         if zlen d <=? 0 then bad
         else read_heads f' k i (adv_to off end_ (off + zlen d)) end_ (acc ++ d)
    else ret (off, acc)
  end.
(* filc_ismapping_boundaries, lib/file.c:1351-1357 *)
Definition at_boundary (off : Z) : bool := Z.rem off (TREE_LEAF * NODE_N) =? 0.
(* filc_do_read_from_tree_leaves, lib/file.c:1942-1961 *)
Fixpoint read_leaves (f : nat) (i : Z) (parent : option Z) (off end_ : Z) (acc : bytes) : M (Z * bytes) :=
  match f with
  | O => bad
  | S f' =>
    if off <? end_
    then fi <- the_ino i ;;
         r <- resolve_tree_leaf i parent off end_ ;; d <- read_from_leaf (fi_ty2 fi) r off end_ ;;
         if zlen d <=? 0 then bad
         else let off' := adv_to off end_ (off + zlen d) in
              if at_boundary off' then ret (off', acc ++ d)
              else read_leaves f' i parent off' end_ (acc ++ d)
    else ret (off, acc)
  end.
(* filc_read_by_tree, lib/file.c:1975-1992 *)
Fixpoint read_by_tree (f : nat) (i off end_ : Z) (acc : bytes) : M (Z * bytes) :=
  match f with
  | O => bad
  | S f' =>
    if off <? end_
    then p <- or_none (stage_by_tree i off) ;;
         x <- read_leaves 1025 i p off end_ acc ;; read_by_tree f' i (fst x) end_ (snd x)
    else ret (off, acc)
  end.
(* rounds of a loop over the stretches of 64M from off to end *)
Definition rounds_map (off end_ : Z) : nat := Z.to_nat (Z.max 0 (end_ - off) / (TREE_LEAF * NODE_N) + 3).
(* filc_read_data, lib/file.c:2019-2032 *)
Definition read_data (i off end_ : Z) : M bytes :=
  x1 <- read_heads 5 HD1 i off end_ [] ;;
  x2 <- read_heads 16 HD2 i (fst x1) end_ (snd x1) ;;
  x3 <- read_by_tree (rounds_map (fst x2) end_) i (fst x2) end_ (snd x2) ;;
  ret (snd x3).
(* filc_check_io_range, lib/file.c:1254-1273, filc_check_io_end 1275-1287 *)
Definition check_io_range (off len : Z) : Z :=
  if off <? 0 then EINVAL else if FILE_SIZE_MAX <? off then EFBIG
  else if FILE_SIZE_MAX <? len then EINVAL
  else if off + len <? off then EOVERFLOW else 0.
Definition check_io_end (end_ : Z) : Z := if end_ <? 0 then EINVAL else if FILE_SIZE_MAX <? end_ then EFBIG else 0.
Definition check (e : Z) : M unit := if e =? 0 then ret tt else fail e.
(* filc_read_iter, lib/file.c:2092-2102, silofs_do_read 2126-2156 *)
Definition do_read (i off len : Z) : M bytes :=
  f <- the_ino i ;;
  check (check_io_range off len) ;;;
  check (if IO_SIZE_MAX <? len then EINVAL else 0) ;;;
  read_data i off (Z.min (off + len) (fi_size f)).

(* ---- leaves and nodes made on demand ---- *)

(* filc_claim_data_space, lib/file.c:2188-2203, filc_create_data_leaf 2335-2347 *)
Definition claim_data (t : Z) : M Z := a <- claim_vspace t ;; require_mut ;;; ret a.
Definition create_leaf (i t : Z) : M Z := a <- claim_data t ;; update_iblocks i t 1 ;;; ret a.
(* filc_update_head1_leaf_by, lib/file.c:2266-2271, filc_update_head2_leaf_by 2273-2278,
   filc_reset_head1_leaf_by 3097-3101, filc_reset_head2_leaf_by 3103-3107 *)
Definition set_head (i k : Z) (v : option (Z * Z)) : M unit := f <- the_ino i ;; put_ino i (fi_set_slot f k v).
(* filc_create_head1_leaf_space, lib/file.c:2349-2363, filc_create_head2_leaf_space 2365-2379;
   filc_require_head1_leaf, lib/file.c:2705-2719, filc_require_head2_leaf 2721-2735 *)
Definition require_head (k : kind) (i off end_ : Z) : M flref :=
  r <- resolve_head k i off end_ ;;
  if has_data r then require_mut ;;; ret r
  else a <- create_leaf i (kind_ltype k) ;;
       f <- the_ino i ;;
       let r' := flref_setup (fi_ty2 f) None (Some (kind_ltype k, a)) off end_ in
       set_head i (head_abs k (fl_slot r')) (fl_addr r') ;;; ret r'.
(* fni_bind_child of a node, lib/file.c:833-840 with fni_assign_child_by_pos 824-831 *)
Definition bind_child (parent pos voff : Z) : M unit :=
  n <- the_node parent ;; put_node parent (assign_child n (slot_of n pos) voff).
(* filc_spawn_setup_finode, lib/file.c:2294-2307, filc_spawn_root_finode 2309-2316,
   filc_bind_sub_tree 2408-2419 *)
Definition spawn_root (i h : Z) : M unit :=
  f <- the_ino i ;;
  a <- spawn_ftnode (ftn_init i 0 h) ;;
  n <- the_node a ;;
  put_node a (assign_child n 0 (match fi_slot f 0 with Some (_, r) => r | None => OFF_NULL end)) ;;;
  put_ino i (fi_set_slot f 0 (Some (LT_FTNODE, a))) ;;;
  n' <- the_node a ;; put_node a (set_nref n' (n_ref n' + 1)).
(* filc_create_tree_spine, lib/file.c:2429-2450; at most height_max rounds *)
Fixpoint grow_spine (f : nat) (i h want : Z) : M unit :=
  match f with
  | O => bad
  | S k => if h <? want then spawn_root i (h + 1) ;;; grow_spine k i (h + 1) want else ret tt
  end.
Definition create_spine (i off : Z) : M unit :=
  f <- the_ino i ;;
  h <- (if has_root f then r <- stage_root i ;; n <- the_node r ;; ret (n_height n) else ret 1) ;;
  grow_spine 10 i h (tree_height off).
(* filc_spawn_bind_finode, lib/file.c:2318-2333, filc_do_require_tree_node 2452-2466 *)
Definition require_node (i off parent : Z) : M Z :=
  n <- the_node parent ;;
  match child_at n (slot_of n off) with
  | Some v => stage_node i (Some v)
  | None => a <- spawn_ftnode (ftn_init i off (n_height n - 1)) ;;
            bind_child parent off a ;;;
            m <- the_node a ;; put_node a (set_nref m (n_ref m + 1)) ;;; ret a
  end.
(* filc_require_tree_path, lib/file.c:2480-2504; also the loop of filc_reserve_leaves,
   lib/file.c:3699-3720 *)
Fixpoint require_from (h : nat) (i off a : Z) : M Z :=
  match h with
  | O => fail EFSCORR
  | S k => n <- the_node a ;;
           bot <- isbottom n ;;
           if bot then ret a else c <- require_node i off a ;; require_from k i off c
  end.
Definition require_path (i off : Z) : M Z :=
  r <- stage_root i ;; n <- the_node r ;; require_from (Z.to_nat (n_height n)) i off r.
(* filc_require_tree, lib/file.c:2506-2520 *)
Definition require_tree (i off : Z) : M Z := create_spine i off ;;; require_path i off.
(* filc_do_require_tree_leaf, lib/file.c:2578-2594; filc_create_bind_tree_leaf, lib/file.c:3661-3678 *)
Definition require_tree_leaf (i parent off end_ : Z) : M flref :=
  r <- resolve_tree_leaf i (Some parent) off end_ ;;
  if has_data r then require_mut ;;; ret r
  else a <- create_leaf i LT_DATABK ;;
       bind_child parent off a ;;;
       resolve_tree_leaf i (Some parent) off end_.

(* ---- writing ---- *)

(* the bytes from .. from+len-1 replaced; a place outside the leaf is a panic (fli_data_at) *)
Definition put_range (d : Z -> Z) (from len : Z) (v : Z -> Z) : Z -> Z :=
  fun k => if (from <=? k) && (k <? from + len) then v (k - from) else d k.
Definition store_range (t a from len : Z) (v : Z -> Z) : M unit :=
  if (from <? 0) || (len <? 0) || (ltype_size t <? from + len) then bad
  else b <- the_blk t a ;; put_blk t a (Some (mkBlk (put_range (b_data b) from len v) (b_ref b) (b_unwr b))).
(* filc_zero_data_leaf_range, lib/file.c:1476-1489, filc_zero_data_leaf_at 1491-1495 *)
Definition zero_leaf_range (t a from len : Z) : M unit :=
  stage_fileaf t a ;;; store_range t a from len (fun _ => 0).
(* filc_pre_write_leaf, lib/file.c:2551-2568, with flref_update_partial, lib/file.c:998-1003 *)
Definition pre_write_leaf (r : flref) (len : Z) : M (flref * bool) :=
  let r' := if 0 <? len then fl_set_partial r (len <? fl_leaf r) else r in
  u <- unwritten_of r' ;;
  if negb u || negb (fl_partial r') then ret (r', u)
  else match fl_addr r' with
       | None => bad
       | Some (t, a) => zero_leaf_range t a 0 (ltype_size t) ;;; ret (r', u)
       end.
(* filc_write_to_leaf_by, lib/file.c:2608-2629: the bytes come from position off-beg of the
   caller's buffer *)
Definition write_to_leaf (dat : bytes) (beg : Z) (r : flref) (off end_ : Z) : M Z :=
  x <- pre_write_leaf r 0 ;;
  match fl_addr (fst x) with
  | None => fail ENOENT
  | Some (t, a) =>
    stage_fileaf t a ;;;
    store_range t a (off_in_data off t) (len_of_data off end_ t) (fun k => znth dat (off - beg + k) 0) ;;;
    set_unwritten false t a ;;;
    ret (len_of_data off end_ t)
  end.
(* filc_detect_shared_by, lib/file.c:2631-2641 *)
Definition detect_shared (r : flref) : M flref :=
  match fl_kind r, fl_addr r with
  | TREE, Some (t, a) => if fl_shared r then ret r else v <- test_shared t a ;; ret (fl_set_shared r v)
  | _, _ => ret r
  end.
(* filc_rebind_child_by, lib/file.c:4267-4274 *)
Definition rebind_child (r : flref) (off : Z) (v : Z * Z) : M flref :=
  match fl_parent r with
  | None => bad
  | Some p => bind_child p off (snd v) ;;; ret (fl_set_addr r (Some v))
  end.
(* silofs_iovec_copy_mem of len bytes between two leaves *)
Definition copy_bytes (t1 a1 from1 t2 a2 from2 len : Z) : M unit :=
  b1 <- the_blk t1 a1 ;; store_range t2 a2 from2 len (fun k => b_data b1 (from1 + k)).
(* filc_unshare_leaf_by, lib/file.c:4276-4306, with filc_copy_data_leaf_by, lib/file.c:4197-4242,
   of the entire leaf: the copy is not marked unwritten *)
Definition copy_whole (t a a2 : Z) : M unit :=
  stage_fileaf t a ;;; stage_fileaf t a2 ;;; copy_bytes t a 0 t a2 0 (ltype_size t) ;;; set_unwritten false t a2.
Definition unshare (i : Z) (r : flref) (off : Z) : M flref :=
  match fl_addr r with
  | None => bad
  | Some (t, a) =>
    if negb (fl_shared r) || match fl_kind r with TREE => false | _ => true end then ret r
    else a2 <- claim_data t ;;
         (fun s => match copy_whole t a a2 s with
                   | (s', Ok _) => (reclaim_vspace t a ;;; rebind_child r off (t, a2)) s'
                   | (s', Err e) => (fst (reclaim_vspace t a2 s'), Err e)
                   | (s', Bad) => (s', Bad)
                   end)
  end.
(* loops over leaves end with the offset reached *)
Definition L := st -> st * (Z * res unit).
(* filc_write_by_heads, lib/file.c:2737-2768: the loop of one kind *)
Definition write_head (dat : bytes) (beg : Z) (k : kind) (i off end_ : Z) : M Z :=
  r <- require_head k i off end_ ;; write_to_leaf dat beg r off end_.
Fixpoint write_heads (f : nat) (dat : bytes) (beg : Z) (k : kind) (i off end_ : Z) : L := fun s =>
  match f with
  | O => (s, (off, Bad))
  | S f' =>
    if has_head_io k (fi_ty2 (w_ino (s_w s) i)) off end_
    then match write_head dat beg k i off end_ s with
         | (s', Ok len) => if len <=? 0 then (s', (off, Bad))
                           else write_heads f' dat beg k i (adv_to off end_ (off + len)) end_ s'
         | (s', Err e) => (s', (off, Err e))
         | (s', Bad) => (s', (off, Bad))
         end
    else (s, (off, Ok tt))
  end.
(* filc_do_write_to_tree_leaves, lib/file.c:2643-2674 *)
Definition write_tree_leaf (dat : bytes) (beg : Z) (i parent off end_ : Z) : M Z :=
  r <- require_tree_leaf i parent off end_ ;;
  r1 <- detect_shared r ;;
  r2 <- unshare i r1 off ;;
  write_to_leaf dat beg r2 off end_.
Fixpoint write_leaves (f : nat) (dat : bytes) (beg : Z) (i parent off end_ : Z) : L := fun s =>
  match f with
  | O => (s, (off, Bad))
  | S f' =>
    if off <? end_
    then match write_tree_leaf dat beg i parent off end_ s with
         | (s', Ok len) =>
           if len <=? 0 then (s', (off, Bad))
           else let off' := adv_to off end_ (off + len) in
                if at_boundary off' then (s', (off', Ok tt)) else write_leaves f' dat beg i parent off' end_ s'
         | (s', Err e) => (s', (off, Err e))
         | (s', Bad) => (s', (off, Bad))
         end
    else (s, (off, Ok tt))
  end.
(* filc_write_by_tree, lib/file.c:2687-2703 *)
Fixpoint write_by_tree (f : nat) (dat : bytes) (beg : Z) (i off end_ : Z) : L := fun s =>
  match f with
  | O => (s, (off, Bad))
  | S f' =>
    if off <? end_
    then match require_tree i off s with
         | (s1, Ok p) =>
           match write_leaves 1025 dat beg i p off end_ s1 with
           | (s2, (off', Ok _)) => write_by_tree f' dat beg i off' end_ s2
           | r => r
           end
         | (s1, Err e) => (s1, (off, Err e))
         | (s1, Bad) => (s1, (off, Bad))
         end
    else (s, (off, Ok tt))
  end.
Definition andL (off : Z) (a : L) (b : Z -> L) : L := fun s =>
  match a s with (s', (o, Ok _)) => b o s' | r => r end.
(* filc_write_data, lib/file.c:2770-2783 *)
Definition write_data (dat : bytes) (i off end_ : Z) : L :=
  andL off (write_heads 5 dat off HD1 i off end_) (fun o1 =>
  andL o1 (write_heads 16 dat off HD2 i o1 end_) (fun o2 =>
  write_by_tree (rounds_map o2 end_) dat off i o2 end_)).
(* the size and span set by filc_update_post_io, lib/file.c:1359-1405, after a write *)
Definition grow_size (i off : Z) : M unit :=
  f <- the_ino i ;; put_ino i (fi_set_size f (Z.max off (fi_size f)) (Z.max off (fi_span f))).
(* filc_write_iter, lib/file.c:2841-2860, silofs_do_write 2886-2916 *)
Definition do_write (i off : Z) (dat : bytes) : M unit :=
  let len := zlen dat in
  check (check_io_range off len) ;;;
  check (check_io_end (off + len)) ;;;
  check (if IO_SIZE_MAX <? len then EINVAL else 0) ;;;
  (fun s => match write_data dat i off (off + len) s with
            | (s', (o, r)) => (fst (grow_size i o s'), r)
            end).

(* ---- seeking in the tree ---- *)

Definition S2 := st -> st * (Z * res flref).
(* filc_seek_tree_at_leaves, lib/file.c:1572-1594 *)
Fixpoint seek_leaves (f : nat) (hole ty2 : bool) (a : Z) (n : ftn) (slot off end_ : Z) : Z * res flref :=
  match f with
  | O => (off, Err ENOENT)
  | S f' =>
    if slot <? NODE_N
    then let off1 := adv_to off end_ (n_file_pos n slot) in
         if off1 <? end_
         then let r := flref_setup ty2 (Some a) (child_at n slot) off1 end_ in
              if eqb hole (negb (has_data r)) then (off1, Ok r)
              else seek_leaves f' hole ty2 a n (slot + 1) off1 end_
         else (off1, Err ENOENT)
    else (off, Err ENOENT)
  end.
(* filc_seek_tree_recursive_at, lib/file.c:1596-1618, and the loop of filc_do_seek_tree_recursive
   1620-1645; rec: the search below a node *)
Fixpoint seek_slots (f : nat) (rec : Z -> Z -> S2) (i : Z) (n : ftn) (slot off end_ : Z) : S2 := fun s =>
  match f with
  | O => (s, (off, Err ENOENT))
  | S f' =>
    if slot <? NODE_N
    then match child_at n slot with
         | None => seek_slots f' rec i n (slot + 1) (adv_to off end_ (n_next_pos n slot)) end_ s
         | Some v =>
           match stage_node i (Some v) s with
           | (s1, Ok c) =>
             match rec c off s1 with
             | (s2, (off2, Err e)) =>
               if e =? ENOENT then seek_slots f' rec i n (slot + 1) (adv_to off2 end_ (n_next_pos n slot)) end_ s2
               else (s2, (off2, Err e))
             | r => r
             end
           | (s1, Err e) =>
             if e =? ENOENT then seek_slots f' rec i n (slot + 1) (adv_to off end_ (n_next_pos n slot)) end_ s1
             else (s1, (off, Err e))
           | (s1, Bad) => (s1, (off, Bad))
           end
         end
    else (s, (off, Err ENOENT))
  end.
(* filc_do_seek_tree_recursive, lib/file.c:1620-1645; the recursion goes down at most
   F_HEIGHT_MAX levels *)
Fixpoint seek_rec (d : nat) (hole : bool) (i end_ a off : Z) : S2 := fun s =>
  match d with
  | O => (s, (off, Bad))
  | S d' =>
    match w_node (s_w s) a with
    | None => (s, (off, Bad))
    | Some n =>
      if negb (n_inrange n off) then (s, (off, Err ENOENT))
      else if negb (height_legal n) then (s, (off, Bad))
      else if n_height n <=? 2
           then (s, seek_leaves 1024 hole (fi_ty2 (w_ino (s_w s) i)) a n (slot_of n off) off end_)
           else seek_slots 1024 (seek_rec d' hole i end_) i n (slot_of n off) off end_ s
    end
  end.
(* filc_seek_by_tree, lib/file.c:1659-1677 *)
Definition seek_by_tree (hole : bool) (i off end_ : Z) : S2 := fun s =>
  if negb (has_root (w_ino (s_w s) i)) then (s, (off, Err ENOENT))
  else match stage_root i s with
       | (s1, Ok r) => seek_rec 6 hole i end_ r off s1
       | (s1, Err e) => (s1, (off, Err e))
       | (s1, Bad) => (s1, (off, Bad))
       end.

(* ---- discarding ---- *)

(* filc_del_data_space, lib/file.c:2217-2238, filc_discard_data_leaf, lib/file.c:2935-2949 *)
Definition discard_leaf (i t a : Z) : M unit :=
  last <- test_last t a ;;
  (if last || negb (isdatabk t) then set_unwritten false t a else ret tt) ;;;
  reclaim_vspace t a ;;;
  update_iblocks i t (-1).
(* filc_discard_entire_by, lib/file.c:3239-3256 *)
Definition clear_leaf (i : Z) (r : flref) : M unit :=
  match fl_kind r with
  | TREE => match fl_parent r with
            | None => ret tt
            | Some p => n <- the_node p ;; put_node p (clear_child n (fl_slot r))
            end
  | k => set_head i (head_abs k (fl_slot r)) None
  end.
(* filc_zero_data_leaf_range_by, lib/file.c:3197-3210, filc_discard_partial_by 3212-3226;
   filc_discard_data_by, lib/file.c:3269-3290 *)
Definition discard_by (zero_mode : bool) (i : Z) (r : flref) (off end_ : Z) : M unit :=
  match fl_addr r with
  | None => ret tt
  | Some _ =>
    r1 <- detect_shared r ;;
    if fl_partial r1
    then r2 <- unshare i r1 off ;;
         match fl_addr r2 with
         | None => bad
         | Some (t, a) => zero_leaf_range t a (off_in_data (fl_pos r2) t) (len_of_data (fl_pos r2) end_ t)
         end
    else match fl_addr r1 with
         | None => bad
         | Some (t, a) =>
           if negb (fl_shared r1) && zero_mode then set_unwritten true t a
           else discard_leaf i t a ;;; clear_leaf i r1
         end
  end.
(* filc_discard_by_heads, lib/file.c:3317-3339 *)
Fixpoint discard_heads (f : nat) (zero_mode : bool) (k : kind) (i off end_ : Z) : L := fun s =>
  match f with
  | O => (s, (off, Bad))
  | S f' =>
    let ty2 := fi_ty2 (w_ino (s_w s) i) in
    if has_head_io k ty2 off end_
    then match (r <- resolve_head k i off end_ ;; discard_by zero_mode i r off end_) s with
         | (s', Ok _) => discard_heads f' zero_mode k i (adv_next ty2 off end_) end_ s'
         | (s', Err e) => (s', (off, Err e))
         | (s', Bad) => (s', (off, Bad))
         end
    else (s, (off, Ok tt))
  end.
(* filc_discard_by_tree, lib/file.c:3292-3315 *)
Fixpoint discard_tree (f : nat) (zero_mode : bool) (i off end_ : Z) : L := fun s =>
  match f with
  | O => (s, (off, Bad))
  | S f' =>
    if off <? end_
    then match seek_by_tree false i off end_ s with
         | (s1, (off1, Ok r)) =>
           match discard_by zero_mode i r off1 end_ s1 with
           | (s2, Ok _) => discard_tree f' zero_mode i (adv_next (fi_ty2 (w_ino (s_w s) i)) off1 end_) end_ s2
           | (s2, Err e) => (s2, (off1, Err e))
           | (s2, Bad) => (s2, (off1, Bad))
           end
         | (s1, (off1, Err e)) => if e =? ENOENT then (s1, (off1, Ok tt)) else (s1, (off1, Err e))
         | (s1, (off1, Bad)) => (s1, (off1, Bad))
         end
    else (s, (off, Ok tt))
  end.
Definition rounds_leaf (off end_ : Z) : nat := Z.to_nat (Z.max 0 (end_ - off) / TREE_LEAF + 3).
(* filc_discard_data, lib/file.c:3341-3354 *)
Definition discard_data (zero_mode : bool) (i off end_ : Z) : L :=
  andL off (discard_heads 5 zero_mode HD1 i off end_) (fun o1 =>
  andL o1 (discard_heads 16 zero_mode HD2 i o1 end_) (fun o2 => fun s =>
  if negb (has_root (w_ino (s_w s) i)) then (s, (o2, Ok tt))
  else discard_tree (rounds_leaf o2 end_) zero_mode i o2 end_ s)).

(* ---- dropping everything ---- *)

(* filc_drop_subtree_at and the loop of filc_drop_recursive, lib/file.c:2993-3011; rec: dropping
   of the tree below a node *)
Fixpoint drop_slots (f : nat) (rec : Z -> M unit) (i a slot : Z) : M unit :=
  match f with
  | O => ret tt
  | S f' =>
    n <- the_node a ;;
    if (NODE_N <=? slot) || (n_nact n =? 0) then ret tt
    else match child_at n slot with
         | None => drop_slots f' rec i a (slot + 1)
         | Some (t, c) =>
           bot <- isbottom n ;;
           (if bot then discard_leaf i t c else c' <- stage_node i (Some (t, c)) ;; rec c') ;;;
           n' <- the_node a ;; put_node a (clear_child n' slot) ;;; drop_slots f' rec i a (slot + 1)
         end
  end.
(* filc_drop_finode, lib/file.c:3013-3023; a count of zero is fatal (silofs_expect_gt) *)
Definition drop_finode (a : Z) : M unit :=
  n <- the_node a ;;
  if n_ref n <=? 0 then bad
  else put_node a (set_nref n (n_ref n - 1)) ;;;
       if n_ref n - 1 =? 0 then may_fail ;;; (fun s => (set_w s (set_node (s_w s) a None), Ok tt)) else ret tt.
(* filc_drop_remove_subtree, lib/file.c:3025-3039 *)
Fixpoint drop_subtree (d : nat) (i a : Z) : M unit :=
  match d with
  | O => bad
  | S d' => drop_slots 1025 (drop_subtree d' i) i a 0 ;;; drop_finode a
  end.
(* filc_drop_tree_map, lib/file.c:3047-3065 *)
Definition drop_tree (i : Z) : M unit :=
  f <- the_ino i ;;
  if negb (has_root f) then ret tt
  else r <- stage_root i ;; drop_subtree 6 i r ;;; set_head i 0 None.
(* filc_drop_head1_leafs, lib/file.c:3117-3129, filc_drop_head2_leafs 3131-3143 *)
Fixpoint drop_heads (n : nat) (i slot : Z) (k : kind) : M unit :=
  match n with
  | O => ret tt
  | S n' =>
    f <- the_ino i ;;
    (match fi_slot f (head_abs k slot) with None => ret tt | Some (t, a) => discard_leaf i t a end) ;;;
    set_head i (head_abs k slot) None ;;;
    drop_heads n' i (slot + 1) k
  end.
(* filc_drop_heads, lib/file.c:3145-3161, filc_drop_data_and_meta 3163-3176, silofs_drop_reg 3178-3193 *)
Definition drop_all (i : Z) : M unit :=
  f <- the_ino i ;;
  (if fi_ty2 f then ret tt else drop_heads 4 i 0 HD1 ;;; drop_heads 15 i 0 HD2) ;;;
  drop_tree i.

(* ---- truncate ---- *)

(* filc_resolve_heads_end, lib/file.c:3361-3389 *)
Fixpoint last_head (n : nat) (f : finode) (k : kind) : option Z :=
  match n with
  | O => None
  | S n' => match fi_slot f (head_abs k (Z.of_nat n')) with
            | Some _ => Some (Z.of_nat n')
            | None => last_head n' f k
            end
  end.
Definition heads_end (f : finode) : Z :=
  if fi_ty2 f then 0
  else match last_head 15 f HD2 with
       | Some s => head2_end_of s
       | None => match last_head 4 f HD1 with Some s => head1_end_of s | None => 0 end
       end.
(* filc_resolve_tree_end, lib/file.c:3391-3407 *)
Definition tree_end (i : Z) : M Z :=
  f <- the_ino i ;;
  if negb (has_root f) then ret 0 else r <- stage_root i ;; n <- the_node r ;; ret (n_end n).
Definition runL (l : L) : M unit := fun s => match l s with (s', (_, r)) => (s', r) end.
(* silofs_do_truncate, lib/file.c:3451-3475, filc_truncate 3427-3449 *)
Definition do_truncate (i off : Z) : M unit :=
  f <- the_ino i ;;
  check (check_io_range off (if off <? fi_span f then fi_span f - off else 0)) ;;;
  te <- tree_end i ;;
  runL (discard_data false i off (Z.max (Z.max off (heads_end f)) te)) ;;;
  (if off =? 0 then drop_all i else ret tt) ;;;
  f' <- the_ino i ;; put_ino i (fi_set_size f' off off).

(* ---- fallocate ---- *)

Definition FL_KEEP_SIZE := 1.
Definition FL_PUNCH_HOLE := 2.
Definition FL_COLLAPSE := 8.
Definition FL_ZERO_RANGE := 16.
Definition FL_INSERT := 32.
Definition FL_UNSHARE := 64.
Definition fl_has (m x : Z) : bool := Z.land m x =? x.
(* filc_check_fl_mode, lib/file.c:3614-3659 *)
Definition check_fl_mode (m : Z) : Z :=
  let x := Z.land m (2 + 8 + 16 + 32 + 64) in
  if (x =? FL_PUNCH_HOLE) && negb (fl_has m FL_KEEP_SIZE) then EOPNOTSUPP
  else if ((x =? FL_COLLAPSE) || (x =? FL_INSERT)) && fl_has m FL_KEEP_SIZE then EOPNOTSUPP
  else if negb ((x =? FL_UNSHARE) || (x =? FL_ZERO_RANGE) || (x =? FL_PUNCH_HOLE) || (x =? FL_COLLAPSE) || (x =? FL_INSERT) || (x =? 0))
  then EOPNOTSUPP
  else if fl_has m (FL_PUNCH_HOLE + FL_ZERO_RANGE) then EOPNOTSUPP
  else if negb (Z.ldiff m (1 + 2 + 8 + 16 + 32 + 64) =? 0) then EOPNOTSUPP
  else if negb (Z.ldiff m (1 + 2 + 16) =? 0) then EOPNOTSUPP else 0.
(* filc_fallocate_reserve_by_heads, lib/file.c:3747-3767 *)
Fixpoint reserve_heads (f : nat) (k : kind) (i off end_ : Z) : L := fun s =>
  match f with
  | O => (s, (off, Bad))
  | S f' =>
    let ty2 := fi_ty2 (w_ino (s_w s) i) in
    if has_head_io k ty2 off end_
    then match require_head k i off end_ s with
         | (s', Ok _) => reserve_heads f' k i (adv_next ty2 off end_) end_ s'
         | (s', Err e) => (s', (off, Err e))
         | (s', Bad) => (s', (off, Bad))
         end
    else (s, (off, Ok tt))
  end.
(* filc_reserve_tree_leaves, lib/file.c:3680-3697 *)
Fixpoint reserve_leaves (f : nat) (i parent off end_ : Z) : L := fun s =>
  match f with
  | O => (s, (off, Bad))
  | S f' =>
    if off <? end_
    then match require_tree_leaf i parent off end_ s with
         | (s', Ok _) =>
           let off' := adv_next (fi_ty2 (w_ino (s_w s) i)) off end_ in
           if at_boundary off' then (s', (off', Ok tt)) else reserve_leaves f' i parent off' end_ s'
         | (s', Err e) => (s', (off, Err e))
         | (s', Bad) => (s', (off, Bad))
         end
    else (s, (off, Ok tt))
  end.
(* filc_reserve_by_tree, lib/file.c:3722-3735, filc_fallocate_reserve_by_tree 3737-3745 *)
Fixpoint reserve_by_tree (f : nat) (i off end_ : Z) : L := fun s =>
  match f with
  | O => (s, (off, Bad))
  | S f' =>
    if off <? end_
    then match require_tree i off s with
         | (s1, Ok p) =>
           match reserve_leaves 1025 i p off end_ s1 with
           | (s2, (off', Ok _)) => reserve_by_tree f' i off' end_ s2
           | r => r
           end
         | (s1, Err e) => (s1, (off, Err e))
         | (s1, Bad) => (s1, (off, Bad))
         end
    else (s, (off, Ok tt))
  end.
Definition reserve (i off end_ : Z) : L :=
  andL off (reserve_heads 5 HD1 i off end_) (fun o1 =>
  andL o1 (reserve_heads 16 HD2 i o1 end_) (fun o2 => reserve_by_tree (rounds_map o2 end_) i o2 end_)).
(* filc_fallocate, lib/file.c:3811-3829, silofs_do_fallocate 3831-3853 *)
Definition do_fallocate (i mode off len : Z) : M unit :=
  check (check_io_range off len) ;;;
  check (check_io_end (off + len)) ;;;
  check (check_fl_mode mode) ;;;
  (if Z.ldiff mode FL_KEEP_SIZE =? 0 then runL (reserve i off (off + len))
   else if fl_has mode FL_PUNCH_HOLE then runL (discard_data (fl_has mode FL_ZERO_RANGE) i off (off + len))
   else if fl_has mode FL_ZERO_RANGE then runL (discard_data (fl_has mode FL_ZERO_RANGE) i off (off + len))
   else fail EOPNOTSUPP) ;;;
  f <- the_ino i ;;
  put_ino i (fi_set_size f (if fl_has mode FL_KEEP_SIZE then fi_size f else Z.max (off + len) (fi_size f))
                         (Z.max (off + len) (fi_span f))).

(* ---- lseek ---- *)

(* filc_seek_data_by_heads, filc_seek_hole_by_heads: the loop of one kind; None: not found *)
Fixpoint seek_heads (f : nat) (hole : bool) (k : kind) (fi : finode) (off end_ : Z) : Z * option flref :=
  match f with
  | O => (off, None)
  | S f' =>
    if has_head_io k (fi_ty2 fi) off end_
    then let r := flref_setup (fi_ty2 fi) None (fi_slot fi (head_abs k (head_slot k off))) off end_ in
         if eqb hole (negb (has_data r)) then (off, Some r)
         else seek_heads f' hole k fi (adv_next (fi_ty2 fi) off end_) end_
    else (off, None)
  end.
(* filc_lseek_data_leaf, lib/file.c:3479-3494, filc_lseek_hole_noleaf 3515-3525 *)
Definition seek_leaf (hole : bool) (i off end_ : Z) : S2 := fun s =>
  let fi := w_ino (s_w s) i in
  match seek_heads 5 hole HD1 fi off end_ with
  | (o, Some r) => (s, (o, Ok r))
  | (o, None) =>
    match seek_heads 16 hole HD2 fi o end_ with
    | (o', Some r) => (s, (o', Ok r))
    | (o', None) => seek_by_tree hole i o' end_ s
    end
  end.
(* filc_lseek_data, lib/file.c:3496-3513, filc_lseek_hole 3527-3542, filc_lseek 3550-3565,
   silofs_do_lseek 3567-3591 *)
Definition do_lseek (hole : bool) (i off : Z) : M Z := fun s =>
  let fi := w_ino (s_w s) i in
  let e := check_io_range off 0 in
  if negb (e =? 0) then (s, Err e)
  else if (fi_size fi <=? off) || (off <? 0) then (s, Err ENXIO)
  else match seek_leaf hole i off (fi_size fi) s with
       | (s', (o, Ok r)) => (s', Ok (off_clamp (fl_pos r) o (fi_size fi)))
       | (s', (o, Err e)) => if e =? ENOENT then (if hole then (s', Ok (fi_size fi)) else (s', Err ENXIO)) else (s', Err e)
       | (s', (o, Bad)) => (s', Bad)
       end.

(* ---- copy_file_range ---- *)

(* filc_resolve_fpos_recursive_at, lib/file.c:4070-4091, filc_do_resolve_fpos_recursive 4093-4111 *)
Fixpoint fpos_rec (d : nat) (i off end_ a : Z) : M flref :=
  match d with
  | O => bad
  | S d' =>
    n <- the_node a ;;
    if negb (n_inrange n off) then fail ENOENT
    else bot <- isbottom n ;;
         if bot then f <- the_ino i ;; ret (flref_setup (fi_ty2 f) (Some a) (child_at n (slot_of n off)) off end_)
         else c <- stage_node i (child_at n (slot_of n off)) ;; fpos_rec d' i off end_ c
  end.
(* filc_resolve_fpos_by_heads, lib/file.c:4055-4068, filc_resolve_fpos_by_tree 4125-4143,
   filc_resolve_fpos 4145-4161 *)
Definition resolve_fpos (i off end_ : Z) : M flref :=
  f <- the_ino i ;;
  if has_head_io HD1 (fi_ty2 f) off end_ then resolve_head HD1 i off end_
  else if has_head_io HD2 (fi_ty2 f) off end_ then resolve_head HD2 i off end_
  else x <- or_none (if negb (has_root f) then fail ENOENT else r <- stage_root i ;; fpos_rec 6 i off end_ r) ;;
       match x with Some r => ret r | None => ret (flref_setup (fi_ty2 f) None None off end_) end.
(* filc_copy_length_of, lib/file.c:4163-4169 *)
Definition copy_length (ty2 : bool) (off end_ : Z) : Z := Z.min (end_ - off) (len_to_next off (cur_ltype ty2 off)).
(* filc_copy_data_leaf_by, lib/file.c:4197-4242; u: the mark seen before at the destination *)
Definition copy_data_leaf (rs : flref) (off_s : Z) (rd : flref) (off_d : Z) (u : bool) (len : Z) : M unit :=
  match fl_addr rs, fl_addr rd with
  | Some (ts, a_s), Some (td, a_d) =>
    stage_fileaf ts a_s ;;; stage_fileaf td a_d ;;;
    copy_bytes ts a_s (if len =? ltype_size ts then 0 else off_in_data off_s ts)
               td a_d (if len =? ltype_size td then 0 else off_in_data off_d td) len ;;;
    (if u then set_unwritten false td a_d else ret tt)
  | _, _ => fail ENOENT
  end.
(* filc_copy_leaf_by, lib/file.c:4244-4265 *)
Definition copy_leaf (rs : flref) (off_s : Z) (rd : flref) (off_d : Z) (len : Z) : M unit :=
  xd <- pre_write_leaf rd len ;;
  xs <- pre_write_leaf rs len ;;
  copy_data_leaf (fst xs) off_s (fst xd) off_d (snd xd) len.
(* filc_require_tree_and_leaf, lib/file.c:4308-4323, filc_require_ftype1_leaf 4325-4338,
   filc_require_ftype2_leaf 4340-4344, filc_require_leaf 4346-4357 *)
Definition require_leaf (i off end_ : Z) : M flref :=
  f <- the_ino i ;;
  match kind_of (fi_ty2 f) off with
  | TREE => p <- require_tree i off ;; require_tree_leaf i p off end_
  | k => require_head k i off end_
  end.
(* filc_require_mut_by, lib/file.c:2570-2576 *)
Definition require_mut_by (r : flref) : M unit := if has_data r then require_mut else ret tt.
(* filc_share_leaf_by, lib/file.c:4359-4373 *)
Definition share_leaf (rs : flref) (i_d off_d : Z) (rd : flref) : M unit :=
  match fl_addr rs with
  | None => fail ENOENT
  | Some (t, a) => addref_vspace t a ;;; rebind_child rd off_d (t, a) ;;; update_iblocks i_d t 1
  end.
(* filc_test_ismutable_by, lib/file.c:4375-4380, filc_test_may_share_leaf_by 4382-4396 *)
Definition may_share (is_src : bool) (r : flref) : M bool :=
  if is_src && negb (has_data r) then ret false
  else match fl_kind r with
       | TREE => if fl_partial r then ret false else if fl_laddr r then test_mutable else ret true
       | _ => ret false
       end.
Definition may_share2 (rs rd : flref) : M bool := x <- may_share true rs ;; if x then may_share false rd else ret false.
(* filc_resolve_laddr_by, lib/file.c:4398-4414 *)
Definition resolve_laddr (r : flref) : M flref := if has_data r then may_fail ;;; ret (fl_set_laddr r true) else ret r.
(* filc_copy_range_at_leaf_by, lib/file.c:4430-4515, with filc_require_tree_by 4416-4428.  The first
   filc_unshare_leaf_by of the C code has no effect: the reference has not been tested for
   sharing yet *)
Definition copy_at_leaf (rs : flref) (off_s : Z) (i_d : Z) (rd : flref) (off_d end_d len : Z) : M unit :=
  match has_data rs, has_data rd with
  | false, true =>
    require_mut_by rd ;;; r1 <- unshare i_d rd off_d ;; discard_by false i_d r1 off_d end_d
  | true, false =>
    rs' <- resolve_laddr rs ;;
    sh <- may_share2 rs' rd ;;
    if sh then p <- require_tree i_d off_d ;; rd' <- resolve_tree_leaf i_d (Some p) off_d end_d ;;
               share_leaf rs' i_d off_d rd'
    else rd' <- require_leaf i_d off_d end_d ;; require_mut_by rd' ;;; copy_leaf rs' off_s rd' off_d len
  | true, true =>
    require_mut_by rd ;;;
    rs' <- resolve_laddr rs ;;
    rd' <- resolve_laddr rd ;;
    sh <- may_share2 rs' rd' ;;
    if sh then discard_by false i_d rd' off_d end_d ;;; share_leaf rs' i_d off_d rd'
    else copy_leaf rs' off_s rd' off_d len
  | false, false => ret tt
  end.
(* filc_copy_range_iter, lib/file.c:4517-4547, with filc_copy_range_length 4171-4178; the offset
   reached in the destination *)
Fixpoint copy_iter (f : nat) (i_s off_s end_s i_d off_d end_d : Z) : M Z :=
  match f with
  | O => bad
  | S f' =>
    if (off_s <? end_s) && (off_d <? end_d)
    then rs <- resolve_fpos i_s off_s end_s ;;
         rd <- resolve_fpos i_d off_d end_d ;;
         fs <- the_ino i_s ;;
         fd <- the_ino i_d ;;
         let len := Z.min (copy_length (fi_ty2 fs) off_s end_s) (copy_length (fi_ty2 fd) off_d end_d) in
         if len =? 0 then ret off_d
         else copy_at_leaf rs off_s i_d rd off_d end_d len ;;;
              copy_iter f' i_s (adv_to off_s end_s (off_s + len)) end_s i_d (adv_to off_d end_d (off_d + len)) end_d
    else ret off_d
  end.
(* filc_check_file_io, lib/file.c:1289-1343: the checks made for a copy *)
Definition check_copy_io (off len : Z) : Z :=
  let e := check_io_range off len in
  if negb (e =? 0) then e
  else if negb (Z.rem off LBK_SIZE =? 0) && (IO_SIZE_MAX <? len) then EINVAL else 0.
(* filc_lseek_data_pos, lib/file.c:4573-4602 *)
Definition seek_data_pos (i off end_ : Z) : M Z := fun s =>
  match seek_leaf false i off end_ s with
  | (s', (_, Ok r)) => (s', Ok (fl_pos r))
  | (s', (_, Err e)) => if e =? ENOENT then (s', Ok FILE_SIZE_MAX) else (s', Err e)
  | (s', (_, Bad)) => (s', Bad)
  end.
Definition rounds_copy (len : Z) : nat := Z.to_nat (2 * (Z.max 0 len / HEAD1_LEAF) + 6).
(* filc_check_copy_range, lib/file.c:4549-4571, filc_pre_copy_range 4633-4647,
   filc_set_copy_range_start 4604-4631, filc_copy_range 4649-4673, silofs_do_copy_file_range
   4675-4717, ii_off_end 4011-4018; without flags *)
Definition do_copy (i_s i_d off_in off_out len : Z) : M Z :=
  f <- the_ino i_s ;;
  check (check_copy_io off_in len) ;;;
  check (check_copy_io off_out len) ;;;
  check (if (i_s =? i_d) && (off_in <? off_out + len) && (off_out <? off_in + len) then EINVAL else 0) ;;;
  may_fail ;;; may_fail ;;;
  let end_s := Z.min (off_in + len) (fi_size f) in
  let end_d := off_out + len in
  ds <- seek_data_pos i_s off_in end_s ;;
  dd <- seek_data_pos i_d off_out end_d ;;
  let skip := Z.min (if off_in <? ds then ds - off_in else 0) (if off_out <? dd then dd - off_out else 0) in
  let off_s := if 0 <? skip then adv_to off_in end_s (off_in + skip) else off_in in
  let off_d := if 0 <? skip then adv_to off_out end_d (off_out + skip) else off_out in
  o <- copy_iter (rounds_copy len) i_s off_s end_s i_d off_d end_d ;;
  grow_size i_d o ;;; ret (o - off_out).
