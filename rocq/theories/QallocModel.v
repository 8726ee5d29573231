(* The memory pool of lib/infra/qalloc.c: pages of 64K kept as runs of free or used pages, and slabs
   which cut single pages into elements of one size.

   The data memory is a function from offsets in the pool to bytes; a pointer is such an offset.
   Calls are modelled one at a time (the C code runs them under a lock of the pool and one of the
   slab).  A free list is the list of its members; the links of the elements of a slab are kept in
   the elements themselves, hence any call which works on such a list may leave any bytes in the
   first 16 bytes of each of its members (the argument j of the calls).

   Not modelled: creation of the memory files (qpool_init_memfds), silofs_qalloc_fini,
   silofs_qalloc_resolve; the fallocate of qpool_punch_hole_at always succeeds (a failure is a panic). *)
From Coq Require Import ZArith List Lia Bool.
From Verif Require Import Base.
Import ListNotations.
Open Scope Z_scope.

Definition PG := 65536.                (* QALLOC_PAGE_SIZE, lib/infra/qalloc.c:38 *)
Definition SEG := 16.                  (* QALLOC_SLAB_SEG_SIZE, lib/infra/qalloc.c:45 *)
Definition SLAB_MAX := 32768.          (* QALLOC_SLAB_SIZE_MAX, lib/infra/qalloc.c:44 *)
Definition NSLABS := 12.               (* QALLOC_NSLABS_MAX, lib/infra/qalloc.c:47 *)
Definition MALLOC_MAX := 64 * 1048576. (* QALLOC_MALLOC_SIZE_MAX, lib/infra/qalloc.c:34 *)
Definition MANY := 2.                  (* QALLOC_FREE_NPAGES_MANY, lib/infra/qalloc.c:35 *)
Definition SIDX_NONE := -1.            (* QALLOC_SLAB_INDEX_NONE, lib/infra/qalloc.c:46 *)
Definition QENOMEM := -12.
Definition QEINVAL := -22.
Definition EQALLOC := -2001.           (* any number which is not one of the above *)

(* struct silofs_qpage_info, lib/infra/qalloc.c:63-75; a page by its index *)
Record pgi := mkPgi { pg_prev : option Z; pg_count : Z; pg_free : bool; pg_sidx : Z; pg_snused : Z; pg_snelems : Z }.
(* struct silofs_slab, include/silofs/infra/qalloc.h:72-80 *)
Record slab := mkSlab { sl_list : list Z; sl_nfree : Z; sl_nused : Z }.
(* struct silofs_qpool and struct silofs_qalloc, include/silofs/infra/qalloc.h:61-88 *)
Record qst := mkQ { q_pg : Z -> pgi; q_list : list Z; q_use : Z; q_slab : Z -> slab; q_bytes : Z; q_mem : Z -> Z }.
(* what does not change: npgs_max, SILOFS_QALLOCF_NOFAIL, SILOFS_QALLOCF_DEMASK *)
Record qconf := mkConf { c_npgs : Z; c_nofail : bool; c_demask : bool }.

(* RPanic: silofs_panic or a failed assertion; RBad: a list is broken *)
Inductive res (A : Type) := ROk (a : A) | RErr (e : Z) | RPanic | RBad.
Arguments ROk {A} a.
Arguments RErr {A} e.
Arguments RPanic {A}.
Arguments RBad {A}.
Definition Q (A : Type) := qst -> qst * res A.
Definition qret {A} (a : A) : Q A := fun s => (s, ROk a).
Definition qerr {A} (e : Z) : Q A := fun s => (s, RErr e).
Definition qpanic {A} : Q A := fun s => (s, RPanic).
Definition qbad {A} : Q A := fun s => (s, RBad).
Definition qbind {A B} (m : Q A) (f : A -> Q B) : Q B := fun s =>
  match m s with
  | (s', ROk a) => f a s'
  | (s', RErr e) => (s', RErr e)
  | (s', RPanic) => (s', RPanic)
  | (s', RBad) => (s', RBad)
  end.
Notation "x <- m ;; k" := (qbind m (fun x => k)) (at level 100, m at next level, right associativity).
Notation "m ;;; k" := (qbind m (fun _ => k)) (at level 100, right associativity).
Definition qget : Q qst := fun s => (s, ROk s).
Definition qput (s' : qst) : Q unit := fun _ => (s', ROk tt).
Definition qassert (b : bool) : Q unit := if b then qret tt else qpanic.

Definition set_pg (s : qst) (f : Z -> pgi) : qst := mkQ f (q_list s) (q_use s) (q_slab s) (q_bytes s) (q_mem s).
Definition set_list (s : qst) (l : list Z) : qst := mkQ (q_pg s) l (q_use s) (q_slab s) (q_bytes s) (q_mem s).
Definition set_use (s : qst) (u : Z) : qst := mkQ (q_pg s) (q_list s) u (q_slab s) (q_bytes s) (q_mem s).
Definition set_slab (s : qst) (i : Z) (x : slab) : qst :=
  mkQ (q_pg s) (q_list s) (q_use s) (fset (q_slab s) i x) (q_bytes s) (q_mem s).
Definition set_bytes (s : qst) (b : Z) : qst := mkQ (q_pg s) (q_list s) (q_use s) (q_slab s) b (q_mem s).
Definition set_mem (s : qst) (m : Z -> Z) : qst := mkQ (q_pg s) (q_list s) (q_use s) (q_slab s) (q_bytes s) m.

(* nbytes_to_npgs, lib/infra/qalloc.c:96-99, is_slab_size 106-109 *)
Definition npgs_of (n : Z) : Z := (n + PG - 1) / PG.
Definition is_slab (n : Z) : bool := (0 <? n) && (n <=? SLAB_MAX).
(* memset *)
Definition fill (m : Z -> Z) (p n v : Z) : Z -> Z := fun x => if (p <=? x) && (x <? p + n) then v else m x.
(* the links of the members of a list have been written *)
Definition clobber (l : list Z) (j m : Z -> Z) : Z -> Z :=
  fun x => if existsb (fun e => (e <=? x) && (x <? e + SEG)) l then j x else m x.

(* qpgi_update, lib/infra/qalloc.c:244-250, qpgi_mute 252-255 *)
Definition pg_update (i : pgi) (prev : option Z) (count : Z) : pgi :=
  mkPgi prev count true (pg_sidx i) (pg_snused i) (pg_snelems i).
Definition pg_mute (i : pgi) : pgi := pg_update i None 0.
Definition pg_set_prev (i : pgi) (prev : option Z) : pgi :=
  mkPgi prev (pg_count i) (pg_free i) (pg_sidx i) (pg_snused i) (pg_snelems i).
Definition pg_take (i : pgi) (count : Z) : pgi :=
  mkPgi (pg_prev i) count false (pg_sidx i) (pg_snused i) (pg_snelems i).
Definition pg_slab (i : pgi) (sidx nused nelems : Z) : pgi :=
  mkPgi (pg_prev i) (pg_count i) (pg_free i) sidx nused nelems.
Definition upd_pg (p : Z) (f : pgi -> pgi) : Q unit := fun s => (set_pg s (fset (q_pg s) p (f (q_pg s p))), ROk tt).
Definition mem_z (x : Z) (l : list Z) : bool := existsb (fun y => y =? x) l.
Definition del_z (x : Z) (l : list Z) : list Z := filter (fun y => negb (y =? x)) l.
(* qpgi_push_head, lib/infra/qalloc.c:270-274, qpgi_push_tail 276-280: linking a linked page breaks
   the list *)
Definition link_pg (head : bool) (p : Z) : Q unit := fun s =>
  if mem_z p (q_list s) then (s, RBad)
  else (set_list s (if head then p :: q_list s else q_list s ++ [p]), ROk tt).
(* qpgi_unlink, lib/infra/qalloc.c:282-285: without effect on a page which is not linked *)
Definition unlink_pg (p : Z) : Q unit := fun s => (set_list s (del_z p (q_list s)), ROk tt).

Section WithPool.
Variable c : qconf.

(* qpool_error, lib/infra/qalloc.c:300-327 *)
Definition pool_error : Q unit := if c_nofail c then qpanic else qret tt.
(* qpool_next, lib/infra/qalloc.c:360-371 *)
Definition next_pg (p npgs : Z) : option Z := if p + npgs <? c_npgs c then Some (p + npgs) else None.
(* qpool_update, lib/infra/qalloc.c:406-415 *)
Definition pool_update (p npgs : Z) : Q unit :=
  match next_pg p npgs with
  | Some x => upd_pg x (fun i => pg_set_prev i (Some p))
  | None => qret tt
  end.
(* qpool_add_free, lib/infra/qalloc.c:417-430 *)
Definition add_free (p : Z) (prev : option Z) (npgs : Z) : Q unit :=
  upd_pg p (fun i => pg_update i prev npgs) ;;;
  pool_update p npgs ;;;
  link_pg (MANY <=? npgs) p.
(* qpool_search_free_from_tail, lib/infra/qalloc.c:508-524, qpool_search_free_from_head 526-542,
   qpool_search_free_list 544-557 *)
Definition search (s : qst) (npgs : Z) : option Z :=
  if q_use s + npgs <=? c_npgs c
  then List.find (fun p => npgs <=? pg_count (q_pg s p)) (if MANY <=? npgs then q_list s else rev (q_list s))
  else None.
(* qpool_do_alloc_npgs, lib/infra/qalloc.c:559-581 *)
Definition alloc_npgs (npgs : Z) : Q (option Z) :=
  s <- qget ;;
  match search s npgs with
  | None => qret None
  | Some p =>
    unlink_pg p ;;;
    let n := pg_count (q_pg s p) in
    (if npgs <? n
     then match next_pg p npgs with
          | Some x => add_free x (Some p) (n - npgs)
          | None => qret tt
          end
     else qret tt) ;;;
    upd_pg p (fun i => pg_take i (if npgs <? n then npgs else pg_count i)) ;;;
    qret (Some p)
  end.
(* qpool_do_alloc_multi_pg, lib/infra/qalloc.c:594-609 *)
Definition alloc_multi (n : Z) : Q Z :=
  x <- alloc_npgs (npgs_of n) ;;
  match x with
  | None => qerr QENOMEM
  | Some p => s <- qget ;; qput (set_use s (q_use s + npgs_of n)) ;;;
              s' <- qget ;; qassert (q_use s' <=? c_npgs c) ;;; qret (p * PG)
  end.
(* qpool_may_punch_hole_at, lib/infra/qalloc.c:720-748; flags: SILOFS_ALLOCF_BZERO 1, TRYPUNCH 2, NOPUNCH 4 *)
Definition has_flag (flags f : Z) : bool := negb (Z.land flags f =? 0).
Definition may_punch (p npgs flags : Z) : bool :=
  if has_flag flags 4 then false
  else (if p mod 16 =? 0 then 16 else if has_flag flags 2 then 32 else 128) <=? npgs.
(* qpool_do_free_npgs, lib/infra/qalloc.c:762-785, qpool_punch_hole_at 701-718 *)
Definition free_npgs (p npgs flags : Z) : Q unit :=
  s <- qget ;;
  n1 <- (match next_pg p npgs with
         | Some x => if pg_free (q_pg s x)
                     then unlink_pg x ;;; upd_pg x pg_mute ;;; qret (npgs + pg_count (q_pg s x))
                     else qret npgs
         | None => qret npgs
         end) ;;
  s1 <- qget ;;
  r <- (match pg_prev (q_pg s1 p) with
        | Some x => if pg_free (q_pg s1 x)
                    then upd_pg p pg_mute ;;; unlink_pg x ;;; upd_pg x pg_mute ;;;
                         qret (x, pg_prev (q_pg s1 x), n1 + pg_count (q_pg s1 x))
                    else qret (p, Some x, n1)
        | None => qret (p, None, n1)
        end) ;;
  let '(b, prev, n) := r in
  (if may_punch b n flags
   then s2 <- qget ;; qput (set_mem s2 (fill (q_mem s2) (b * PG) (n * PG) 0))
   else qret tt) ;;;
  add_free b prev n.
(* qpool_page_info_of, lib/infra/qalloc.c:645-652, with qpool_page_info_at 350-358 *)
Definition page_of (ptr : Z) : Q Z := qassert (ptr / PG <? c_npgs c) ;;; qret (ptr / PG).
(* qpool_check_by_page, lib/infra/qalloc.c:668-699: a page already free is reported and freed again *)
Definition check_by_page (ptr n : Z) : Q unit :=
  s <- qget ;;
  if q_use s <? npgs_of n then pool_error ;;; qerr EQALLOC
  else p <- page_of ptr ;;
       (if pg_free (q_pg s p) then pool_error else qret tt) ;;;
       if negb (pg_count (q_pg s p) =? npgs_of n) then pool_error ;;; qerr EQALLOC else qret tt.
(* qpool_do_free_multi_pg, lib/infra/qalloc.c:799-815 *)
Definition free_multi (ptr n flags : Z) : Q unit :=
  check_by_page ptr n ;;;
  p <- page_of ptr ;;
  free_npgs p (npgs_of n) flags ;;;
  s <- qget ;; qput (set_use s (q_use s - npgs_of n)).

(* ---- slabs ---- *)

(* silofs_clz_u32, include/silofs/infra/utility.h:83-86; the number of bits of x *)
Definition bits (x : Z) : Z := if x =? 0 then 0 else Z.log2 x + 1.
Definition clz32 (x : Z) : Z := 32 - bits x.
(* slab_size_to_nlz, lib/infra/qalloc.c:902-907, slab_size_to_sindex 909-926 *)
Definition sindex_of (n : Z) : Z :=
  if negb (is_slab n) then SIDX_NONE
  else let nlz := clz32 (Z.shiftr (n - 1) 4) in
       if (nlz =? 0) || (32 <? nlz) then SIDX_NONE
       else if NSLABS <=? 32 - nlz then SIDX_NONE else 32 - nlz.
(* qalloc_init_slabs, lib/infra/qalloc.c:1184-1207 *)
Definition elemsz (i : Z) : Z := Z.shiftl 1 (4 + i).
(* slab_step_nsegs, lib/infra/qalloc.c:951-956 *)
Definition step_nsegs (i : Z) : Z := (elemsz i + SEG - 1) / SEG.
(* the elements of a page: the loop of slab_expand, lib/infra/qalloc.c:958-974, runs over the
   multiples i of the step with i + step <= 4096 *)
Definition page_segs (i p : Z) : list Z :=
  map (fun k => p * PG + Z.of_nat k * step_nsegs i * SEG) (seq 0 (Z.to_nat (PG / SEG / step_nsegs i))).
Definition slab_expand (i p : Z) (j : Z -> Z) : Q unit := fun s =>
  let sl := q_slab s i in
  let l := sl_list sl ++ page_segs i p in
  let s1 := set_pg s (fset (q_pg s) p (pg_slab (q_pg s p) i 0 (PG / elemsz i))) in
  let s2 := set_slab s1 i (mkSlab l (sl_nfree sl + zlen (page_segs i p)) (sl_nused sl)) in
  (set_mem s2 (clobber l j (q_mem s2)), ROk tt).
(* slab_shrink, lib/infra/qalloc.c:976-996; removing an element which is in use follows its former
   links *)
Definition slab_shrink (i p : Z) (j : Z -> Z) : Q unit := fun s =>
  let sl := q_slab s i in
  if negb (pg_sidx (q_pg s p) =? i) || negb (pg_snused (q_pg s p) =? 0) then (s, RPanic)
  else if sl_nfree sl <? zlen (page_segs i p) then (s, RPanic)
  else if negb (forallb (fun x => mem_z x (sl_list sl)) (page_segs i p)) then (s, RBad)
  else
    let s1 := set_slab s i (mkSlab (filter (fun x => negb (mem_z x (page_segs i p))) (sl_list sl))
                                   (sl_nfree sl - zlen (page_segs i p)) (sl_nused sl)) in
    let s2 := set_pg s1 (fset (q_pg s1) p (pg_slab (q_pg s1 p) SIDX_NONE (pg_snused (q_pg s1 p)) 0)) in
    (set_mem s2 (clobber (sl_list sl) j (q_mem s2)), ROk tt).
(* slab_alloc, lib/infra/qalloc.c:998-1015 *)
Definition slab_alloc (i : Z) (j : Z -> Z) : Q (option Z) := fun s =>
  let sl := q_slab s i in
  match sl_list sl with
  | [] => (s, ROk None)
  | x :: l =>
    if sl_nfree sl <=? 0 then (s, RPanic)
    else let s1 := set_slab s i (mkSlab l (sl_nfree sl - 1) (sl_nused sl + 1)) in
         (set_mem s1 (clobber (x :: l) j (q_mem s1)), ROk (Some x))
  end.
(* slab_free, lib/infra/qalloc.c:1017-1026 *)
Definition slab_free (i x : Z) (j : Z -> Z) : Q unit := fun s =>
  let sl := q_slab s i in
  if mem_z x (sl_list sl) then (s, RBad)
  else if sl_nused sl <=? 0 then (s, RPanic)
  else let s1 := set_slab s i (mkSlab (x :: sl_list sl) (sl_nfree sl + 1) (sl_nused sl - 1)) in
       (set_mem s1 (clobber (x :: sl_list sl) j (q_mem s1)), ROk tt).
(* slab_require_space, lib/infra/qalloc.c:1038-1051 *)
Definition slab_require (i : Z) (j : Z -> Z) : Q unit :=
  s <- qget ;;
  if 0 <? sl_nfree (q_slab s i) then qret tt
  else x <- alloc_npgs 1 ;;
       match x with
       | None => qerr QENOMEM
       | Some p => slab_expand i p j
       end.
(* slab_alloc_and_update, lib/infra/qalloc.c:1053-1067, slab_do_alloc_seg 1069-1085 *)
Definition slab_do_alloc (i : Z) (j : Z -> Z) : Q Z :=
  slab_require i j ;;;
  x <- slab_alloc i j ;;
  match x with
  | None => qerr QENOMEM
  | Some a =>
    p <- page_of a ;;
    s <- qget ;;
    qassert (pg_snused (q_pg s p) <? pg_snelems (q_pg s p)) ;;;
    upd_pg p (fun f => pg_slab f (pg_sidx f) (pg_snused f + 1) (pg_snelems f)) ;;;
    qret a
  end.
(* slab_free_and_update, lib/infra/qalloc.c:1098-1114 *)
Definition slab_free_upd (i a flags : Z) (j : Z -> Z) : Q unit :=
  p <- page_of a ;;
  s <- qget ;;
  qassert (pg_sidx (q_pg s p) =? i) ;;;
  slab_free i a j ;;;
  qassert (pg_snused (q_pg s p) <=? pg_snelems (q_pg s p)) ;;;
  qassert (0 <? pg_snused (q_pg s p)) ;;;
  upd_pg p (fun f => pg_slab f (pg_sidx f) (pg_snused f - 1) (pg_snelems f)) ;;;
  if pg_snused (q_pg s p) - 1 =? 0 then slab_shrink i p j ;;; free_npgs p 1 flags else qret tt.
(* slab_check_seg, lib/infra/qalloc.c:1116-1144 *)
Definition slab_check (i a n : Z) : Q unit :=
  s <- qget ;;
  if sl_nused (q_slab s i) =? 0 then pool_error ;;; qerr EQALLOC
  else if elemsz i <? n then pool_error ;;; qerr EQALLOC
  else if 2 * elemsz i <=? n then pool_error ;;; qerr EQALLOC
  else p <- page_of a ;;
       if negb (pg_sidx (q_pg s p) =? i) then pool_error ;;; qerr EQALLOC
       else if pg_snused (q_pg s p) =? 0 then pool_error ;;; qerr EQALLOC else qret tt.

(* ---- the calls ---- *)

(* qalloc_slab_of, lib/infra/qalloc.c:1289-1299 with qalloc_slab_slot_of *)
Definition slab_of (n : Z) : Q Z := qassert (negb (sindex_of n =? SIDX_NONE)) ;;; qret (sindex_of n).
(* qalloc_malloc, lib/infra/qalloc.c:1375-1396, with qalloc_check_alloc 1316-1330 *)
Definition do_malloc (n flags : Z) (j : Z -> Z) : Q Z :=
  if MALLOC_MAX <? n then qerr QENOMEM
  else if n =? 0 then qerr QEINVAL
  else
    p <- (if is_slab n then i <- slab_of n ;; slab_do_alloc i j else alloc_multi n) ;;
    s <- qget ;;
    qput (set_bytes s (q_bytes s + n)) ;;;
    s' <- qget ;;
    qput (if has_flag flags 1 then set_mem s' (fill (q_mem s') p n 0) else s') ;;;
    qret p.
(* silofs_qalloc_malloc, lib/infra/qalloc.c:1411-1425; None: a null pointer *)
Definition qmalloc (n flags : Z) (j : Z -> Z) : Q (option Z) := fun s =>
  if n =? 0 then (s, ROk None)
  else match do_malloc n flags j s with
       | (s', ROk p) => (s', ROk (Some p))
       | (s', RErr _) => (s', ROk None)
       | (s', RPanic) => (s', RPanic)
       | (s', RBad) => (s', RBad)
       end.
(* qalloc_check_free, lib/infra/qalloc.c:1427-1442, with qpool_isinrange 636-643 *)
Definition check_free (ptr n : Z) : Q unit :=
  if (n =? 0) || (MALLOC_MAX <? n) then pool_error ;;; qerr QEINVAL
  else if negb ((0 <=? ptr) && (ptr + n <=? c_npgs c * PG)) then pool_error ;;; qerr QEINVAL else qret tt.
(* qalloc_free, lib/infra/qalloc.c:1502-1528, with qalloc_pre_free 1492-1500, qalloc_free_sub_pg
   1472-1479, qpool_slab_seg_of 654-666, qalloc_sub_nbytes_use 1357-1361.  The low byte of the magic
   0xBCC12573666F is 0x6F *)
Definition do_free (ptr n flags : Z) (j : Z -> Z) : Q unit :=
  if n =? 0 then qret tt
  else
    check_free ptr n ;;;
    s <- qget ;;
    qput (if negb (flags =? 0)
          then (if has_flag flags 1 then set_mem s (fill (q_mem s) ptr n 0) else s)
          else (if c_demask c then set_mem s (fill (q_mem s) ptr (Z.min 512 n) 111) else s)) ;;;
    (if is_slab n
     then i <- slab_of n ;;
          (let a := ptr / SEG * SEG in slab_check i a n ;;; slab_free_upd i a flags j)
     else free_multi ptr n flags) ;;;
    s' <- qget ;;
    qassert (n <=? q_bytes s') ;;;
    qput (set_bytes s' (q_bytes s' - n)).
(* silofs_qalloc_free, lib/infra/qalloc.c:1548-1557, with qalloc_handle_free_failure 1530-1546; the
   pointer is not null *)
Definition qfree (ptr n flags : Z) (j : Z -> Z) : Q unit := fun s =>
  match do_free ptr n flags j s with
  | (s', RErr _) => if c_nofail c then (s', RPanic) else (s', ROk tt)
  | r => r
  end.

(* qpool_init_page_infos, lib/infra/qalloc.c:432-444, qpgi_init 257-268, slab_init 928-938,
   silofs_qalloc_init 1241-1267; the memory is what mmap gives: zeros *)
Definition pg_init : pgi := mkPgi None 0 true SIDX_NONE 0 0.
Definition q_init0 : qst := mkQ (fun _ => pg_init) [] 0 (fun _ => mkSlab [] 0 0) 0 (fun _ => 0).
Definition q_init : qst := fst (add_free 0 None (c_npgs c) q_init0).
End WithPool.
(* check_memsize, lib/infra/qalloc.c:1216-1225, qpool_init 461-483 *)
Definition conf_of (memsize : Z) (nofail demask : bool) : option qconf :=
  if (memsize <? 8 * 1048576) || (64 * 1073741824 <? memsize) then None
  else Some (mkConf (memsize / PG) nofail demask).
