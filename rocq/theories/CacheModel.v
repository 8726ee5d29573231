(* The cache of file-system objects: lib/hmdq/hmapq.c (hash table with LRU list), lib/hmdq/dirtyq.c
   (dirty queues) and lib/lcache.c (the two caches of vnodes and of unodes built on them).

   An object in memory is named by the number it got when it was created; a number is used once, so
   a pointer to a deleted object is a number without an object, and any access to it is CBad.  The
   links of an element (hme_lru_lh, hme_htb_lh, lh) are modelled by the lists of the members; removal
   of an element from a list which does not hold it is CBad.  CBad also stands for a failed assertion
   and for a panic.  The chain an element is linked into is the one of its hash, which is computed
   once, when it is stored (the key points to the address in the object, which never changes).

   lcache_*_vni and lcache_*_uni are modelled by one function with an argument CV or CU where the
   two C functions are the same up to the names.

   Simplifications: calls are atomic (the C code runs them under the lock of the file system, except
   for the reference counts, which are atomic); counters do not overflow; the map of unode addresses
   (lc_uamap) and the free-space maps (lc_spamaps) are in other models, here a call of
   silofs_lcache_find_uni_by is a lookup of the address it found; results of the memory allocator and
   the memory pressure are arguments. *)
From Coq Require Import ZArith List Lia Bool.
From Verif Require Import Base AddrModel.
Import ListNotations.
Open Scope Z_scope.

(* --- keys ---------------------------------------------------------------------------------- *)
(* silofs_uuid_compare (lib/infra/utility.c) is uuid_compare of libuuid: zero for equal bytes only *)
Fixpoint uuid_compare (a b : bytes) : Z :=
  match a, b with
  | [], [] => 0
  | x :: a', y :: b' => if x =? y then uuid_compare a' b' else x - y
  | [], _ => -1
  | _, [] => 1
  end.
(* lsid_compare, lib/addr/laddr.c:174-204 *)
Definition lsid_compare (a b : lsid) : Z :=
  let c := uuid_compare (ls_lvid a) (ls_lvid b) in
  if negb (c =? 0) then c else
  let c := ls_height b - ls_height a in
  if negb (c =? 0) then c else
  let c := ls_vindex b - ls_vindex a in
  if negb (c =? 0) then c else
  let c := ls_vspace b - ls_vspace a in
  if negb (c =? 0) then c else
  let c := ls_ltype b - ls_ltype a in
  if negb (c =? 0) then c else ls_lsize b - ls_lsize a.
(* silofs_laddr_compare, lib/addr/laddr.c:322-340 *)
Definition laddr_compare (a b : laddr) : Z :=
  let c := lsid_compare (la_lsid a) (la_lsid b) in
  if negb (c =? 0) then c else
  let c := la_pos a - la_pos b in
  if negb (c =? 0) then c else la_len a - la_len b.
(* silofs_uaddr_compare, lib/addr/uaddr.c:62-76 *)
Definition uaddr_compare (a b : uaddr) : Z :=
  let c := laddr_compare (ua_laddr a) (ua_laddr b) in
  if negb (c =? 0) then c else ua_voff a - ua_voff b.

(* struct silofs_hkey, include/silofs/hmdq/hmapq.h:28-50: the key by its type *)
Inductive key := KV (v : vaddr) | KU (u : uaddr).
(* enum silofs_hkey_type, include/silofs/hmdq/hmapq.h:28-34 *)
Definition key_type (k : key) : Z := match k with KU _ => 3 | KV _ => 4 end.
(* hkey_compare_as and silofs_hkey_compare, lib/hmdq/hmapq.c:195-205 *)
Definition hkey_compare (a b : key) : Z :=
  let c := key_type b - key_type a in
  if c =? 0 then
    match a, b with
    | KU x, KU y => uaddr_compare x y
    | KV x, KV y => vaddr_compare x y
    | _, _ => 0
    end
  else c.

Section Hash.
Variable lsid_hash64 : lsid -> Z.      (* silofs_lsid_hash64, lib/addr/laddr.c:212-220 (xxh64) *)

(* hash_of_vaddr, lib/hmdq/hmapq.c:121-126 *)
Definition hash_of_vaddr (v : vaddr) : Z := Z.lxor (u64 (u64 (va_off v) + va_ltype v)) 8317708960518120821.
(* hash_of_uaddr, lib/hmdq/hmapq.c:111-119 *)
Definition hash_of_uaddr (u : uaddr) : Z :=
  Z.lxor (Z.lxor (u64 (ua_voff u)) (u64 (7237128888997146477 - u64 (la_pos (ua_laddr u)))))
         (lsid_hash64 (la_lsid (ua_laddr u))).
(* hkey_hash_of, lib/hmdq/hmapq.c:214-237 *)
Definition hkey_hash_of (k : key) : Z :=
  match k with KU u => hash_of_uaddr u | KV v => hash_of_vaddr v end.

(* hkey_isequal, lib/hmdq/hmapq.c:207-212 *)
Definition hkey_isequal (k1 : key) (h1 : Z) (k2 : key) (h2 : Z) : bool :=
  (key_type k1 =? key_type k2) && (h1 =? h2) && (hkey_compare k1 k2 =? 0).

(* --- state --------------------------------------------------------------------------------- *)
(* the dirty queues: dq_unis, dq_iis, dq_vnis of the cache (include/silofs/lcache.h) and i_dq_vnis
   of an inode *)
Inductive qid := QUnis | QIis | QVnis | QIno (i : Z).
Definition qid_eqb (a b : qid) : bool :=
  match a, b with
  | QUnis, QUnis => true | QIis, QIis => true | QVnis, QVnis => true
  | QIno i, QIno j => i =? j
  | _, _ => false
  end.

(* struct silofs_hmapq_elem and struct silofs_dq_elem, include/silofs/hmdq/hmapq.h:53-64 and
   dirtyq.h, with the flag SILOFS_LNF_PINNED of ln_flags and i_nopen of an inode *)
Record node := mkNode {
  n_key : key; n_hash : Z; n_hhit : Z; n_lhit : Z; n_mapped : bool; n_forgot : bool; n_ref : Z;
  n_sz : Z; n_dq : option qid; n_inq : bool; n_pinned : bool; n_nopen : Z }.
Definition set_hhit (n : node) x := mkNode (n_key n) (n_hash n) x (n_lhit n) (n_mapped n) (n_forgot n) (n_ref n) (n_sz n) (n_dq n) (n_inq n) (n_pinned n) (n_nopen n).
Definition set_lhit (n : node) x := mkNode (n_key n) (n_hash n) (n_hhit n) x (n_mapped n) (n_forgot n) (n_ref n) (n_sz n) (n_dq n) (n_inq n) (n_pinned n) (n_nopen n).
Definition set_mapped (n : node) x := mkNode (n_key n) (n_hash n) (n_hhit n) (n_lhit n) x (n_forgot n) (n_ref n) (n_sz n) (n_dq n) (n_inq n) (n_pinned n) (n_nopen n).
Definition set_forgot (n : node) x := mkNode (n_key n) (n_hash n) (n_hhit n) (n_lhit n) (n_mapped n) x (n_ref n) (n_sz n) (n_dq n) (n_inq n) (n_pinned n) (n_nopen n).
Definition set_ref (n : node) x := mkNode (n_key n) (n_hash n) (n_hhit n) (n_lhit n) (n_mapped n) (n_forgot n) x (n_sz n) (n_dq n) (n_inq n) (n_pinned n) (n_nopen n).
Definition set_dq (n : node) x := mkNode (n_key n) (n_hash n) (n_hhit n) (n_lhit n) (n_mapped n) (n_forgot n) (n_ref n) (n_sz n) x (n_inq n) (n_pinned n) (n_nopen n).
Definition set_inq (n : node) x := mkNode (n_key n) (n_hash n) (n_hhit n) (n_lhit n) (n_mapped n) (n_forgot n) (n_ref n) (n_sz n) (n_dq n) x (n_pinned n) (n_nopen n).
Definition set_pinned (n : node) x := mkNode (n_key n) (n_hash n) (n_hhit n) (n_lhit n) (n_mapped n) (n_forgot n) (n_ref n) (n_sz n) (n_dq n) (n_inq n) x (n_nopen n).
Definition set_nopen (n : node) x := mkNode (n_key n) (n_hash n) (n_hhit n) (n_lhit n) (n_mapped n) (n_forgot n) (n_ref n) (n_sz n) (n_dq n) (n_inq n) (n_pinned n) x.

(* struct silofs_hmapq, include/silofs/hmdq/hmapq.h:67-72: lru from the most to the least recently
   used with its length, chains by slot, nslots, htbl_size *)
Record hmapq := mkHm { hq_lru : list Z; hq_sz : Z; hq_tbl : Z -> list Z; hq_nslots : Z; hq_size : Z }.
(* struct silofs_dirtyq, include/silofs/hmdq/dirtyq.h *)
Record dirtyq := mkDq { dq_l : list Z; dq_sz : Z; dq_accum : Z }.

Inductive cls := CV | CU.
(* struct silofs_lcache, include/silofs/lcache.h *)
Record lcache := mkLc { lc_node : Z -> option node; lc_hm : cls -> hmapq; lc_q : qid -> dirtyq; lc_next : Z }.

Definition cset {A} (f : cls -> A) (c : cls) (x : A) : cls -> A :=
  fun c' => match c, c' with CV, CV => x | CU, CU => x | _, _ => f c' end.
Definition qset {A} (f : qid -> A) (q : qid) (x : A) : qid -> A := fun q' => if qid_eqb q q' then x else f q'.
Definition put_node (s : lcache) (i : Z) (n : option node) : lcache := mkLc (fset (lc_node s) i n) (lc_hm s) (lc_q s) (lc_next s).
Definition put_hm (s : lcache) (c : cls) (h : hmapq) : lcache := mkLc (lc_node s) (cset (lc_hm s) c h) (lc_q s) (lc_next s).
Definition put_q (s : lcache) (q : qid) (d : dirtyq) : lcache := mkLc (lc_node s) (lc_hm s) (qset (lc_q s) q d) (lc_next s).
Definition put_next (s : lcache) (x : Z) : lcache := mkLc (lc_node s) (lc_hm s) (lc_q s) x.

Inductive res (A : Type) := COk (s : lcache) (a : A) | CBad.
Arguments COk {A} s a.
Arguments CBad {A}.
Definition C (A : Type) := lcache -> res A.
Definition cret {A} (a : A) : C A := fun s => COk s a.
Definition cbad {A} : C A := fun _ => CBad.
Definition cbind {A B} (m : C A) (f : A -> C B) : C B := fun s => match m s with COk s' a => f a s' | CBad => CBad end.
Notation "x <- m ;; k" := (cbind m (fun x => k)) (at level 100, m at next level, right associativity).
Notation "m ;;; k" := (cbind m (fun _ => k)) (at level 100, right associativity).
Definition cassert (b : bool) : C unit := if b then cret tt else cbad.
Definition cget : C lcache := fun s => COk s s.
Definition cput (s' : lcache) : C unit := fun _ => COk s' tt.
(* access to an object through a pointer *)
Definition node_of (i : Z) : C node := fun s => match lc_node s i with Some n => COk s n | None => CBad end.
Definition upd (i : Z) (f : node -> node) : C unit :=
  n <- node_of i ;; s <- cget ;; cput (put_node s i (Some (f n))).

(* ltype of the address, lib/addr/uaddr.c:94-97 and vaddr *)
Definition key_ltype (k : key) : Z := match k with KV v => va_ltype v | KU u => ls_ltype (la_lsid (ua_laddr u)) end.
(* vni_isinode, lib/lcache.c:99-104 *)
Definition is_inode (n : node) : bool := match n_key n with KV v => va_ltype v =? LT_INODE | KU _ => false end.

(* --- lib/hmdq/dirtyq.c --------------------------------------------------------------------- *)
(* a queue in memory: those of the cache, and that of an inode which is not deleted *)
Definition q_alive (q : qid) : C unit := match q with QIno i => node_of i ;;; cret tt | _ => cret tt end.
Definition has (i : Z) (l : list Z) : bool := existsb (Z.eqb i) l.
Definition del (i : Z) (l : list Z) : list Z := filter (fun j => negb (i =? j)) l.
(* silofs_dirtyq_append, lib/hmdq/dirtyq.c:33-39 *)
Definition dirtyq_append (q : qid) (i : Z) : C unit :=
  q_alive q ;;; n <- node_of i ;; s <- cget ;;
  cput (put_q s q (mkDq (dq_l (lc_q s q) ++ [i]) (dq_sz (lc_q s q) + 1) (dq_accum (lc_q s q) + n_sz n))) ;;;
  upd i (fun n => set_inq n true).
(* silofs_dirtyq_remove, lib/hmdq/dirtyq.c:41-50 *)
Definition dirtyq_remove (q : qid) (i : Z) : C unit :=
  q_alive q ;;; n <- node_of i ;; cassert (n_inq n) ;;; s <- cget ;;
  cassert (n_sz n <=? dq_accum (lc_q s q)) ;;;
  cassert (has i (dq_l (lc_q s q))) ;;;
  cput (put_q s q (mkDq (del i (dq_l (lc_q s q))) (dq_sz (lc_q s q) - 1) (dq_accum (lc_q s q) - n_sz n))) ;;;
  upd i (fun n => set_inq n false).
(* silofs_dqe_setq, lib/hmdq/dirtyq.c:103-107 *)
Definition dqe_setq (i : Z) (q : qid) : C unit :=
  n <- node_of i ;; cassert (negb (n_inq n)) ;;; upd i (fun n => set_dq n (Some q)).
(* silofs_dqe_enqueue, lib/hmdq/dirtyq.c:109-117 *)
Definition dqe_enqueue (i : Z) : C unit :=
  n <- node_of i ;;
  if n_inq n then cret tt
  else match n_dq n with None => cbad | Some q => dirtyq_append q i end.
(* silofs_dqe_dequeue, lib/hmdq/dirtyq.c:119-127 *)
Definition dqe_dequeue (i : Z) : C unit :=
  n <- node_of i ;;
  if n_inq n then match n_dq n with None => cbad | Some q => dirtyq_remove q i end
  else cret tt.

(* --- lib/lnodes.c: marking objects --------------------------------------------------------- *)
(* silofs_lni_dirtify, silofs_lni_undirtify, lib/lnodes.c:261-266 *)
Definition lni_dirtify (i : Z) : C unit := n <- node_of i ;; if n_inq n then cret tt else dqe_enqueue i.
Definition lni_undirtify (i : Z) : C unit := n <- node_of i ;; if n_inq n then dqe_dequeue i else cret tt.
(* silofs_vni_dirtify with vni_update_dq_by, lib/lnodes.c:467-473; ii is the inode or NULL *)
Definition vni_dirtify (i : Z) (ii : option Z) : C unit :=
  n <- node_of i ;;
  if n_inq n then cret tt
  else (match ii with Some p => dqe_setq i (QIno p) | None => cret tt end) ;;; lni_dirtify i.
(* hmqe_sanitize, lib/hmdq/hmapq.c:271-282 *)
Definition sanitize (i : Z) : C unit := n <- node_of i ;; cassert (negb (n_ref n <? 0)).
(* silofs_hmqe_incref, silofs_hmqe_decref, lib/hmdq/hmapq.c:493-497 *)
Definition incref (i : Z) : C unit := sanitize i ;;; upd i (fun n => set_ref n (n_ref n + 1)).
Definition decref (i : Z) : C unit := sanitize i ;;; upd i (fun n => set_ref n (n_ref n - 1)).

(* --- lib/hmdq/hmapq.c ---------------------------------------------------------------------- *)
(* hmapq_key_to_slot, lib/hmdq/hmapq.c:557-563 *)
Definition slot_of (h : hmapq) (hash : Z) : Z := Z.lxor hash (Z.shiftr hash 32) mod hq_nslots h.
Definition chain_of (h : hmapq) (hash : Z) : list Z := hq_tbl h (slot_of h hash).
Definition set_chain (h : hmapq) (hash : Z) (l : list Z) : hmapq :=
  mkHm (hq_lru h) (hq_sz h) (fset (hq_tbl h) (slot_of h hash) l) (hq_nslots h) (hq_size h).
Definition set_size (h : hmapq) (x : Z) : hmapq := mkHm (hq_lru h) (hq_sz h) (hq_tbl h) (hq_nslots h) x.
Definition set_lru (h : hmapq) (l : list Z) (x : Z) : hmapq := mkHm l x (hq_tbl h) (hq_nslots h) (hq_size h).

(* hmqe_lru and hmqe_unlru, lib/hmdq/hmapq.c:409-413, with listq_push_front and listq_remove *)
Definition lru_push (c : cls) (i : Z) : C unit :=
  s <- cget ;; let h := lc_hm s c in cput (put_hm s c (set_lru h (i :: hq_lru h) (hq_sz h + 1))).
Definition lru_remove (c : cls) (i : Z) : C unit :=
  s <- cget ;; let h := lc_hm s c in
  cassert (has i (hq_lru h)) ;;; cput (put_hm s c (set_lru h (del i (hq_lru h)) (hq_sz h - 1))).
(* hmqe_hmap and hmqe_hunmap, lib/hmdq/hmapq.c:350-354 *)
Definition hmap (c : cls) (i : Z) : C unit :=
  n <- node_of i ;; s <- cget ;; let h := lc_hm s c in
  cput (put_hm s c (set_chain h (n_hash n) (i :: chain_of h (n_hash n)))) ;;;
  upd i (fun n => set_mapped n true).
Definition chain_remove (c : cls) (i : Z) : C unit :=
  n <- node_of i ;; s <- cget ;; let h := lc_hm s c in
  cassert (has i (chain_of h (n_hash n))) ;;;
  cput (put_hm s c (set_chain h (n_hash n) (del i (chain_of h (n_hash n))))).
Definition hunmap (c : cls) (i : Z) : C unit := chain_remove c i ;;; upd i (fun n => set_mapped n false).
Definition add_size (c : cls) (d : Z) : C unit :=
  s <- cget ;; let h := lc_hm s c in cput (put_hm s c (set_size h (hq_size h + d))).

(* silofs_hmapq_store, lib/hmdq/hmapq.c:574-583 *)
Definition hmapq_store (c : cls) (i : Z) : C unit := lru_push c i ;;; hmap c i ;;; add_size c 1.

(* hmapq_find, lib/hmdq/hmapq.c:585-602 *)
Fixpoint find_in (k : key) (hash : Z) (l : list Z) : C (option Z) :=
  match l with
  | [] => cret None
  | i :: t => sanitize i ;;; n <- node_of i ;;
              if hkey_isequal (n_key n) (n_hash n) k hash then cret (Some i) else find_in k hash t
  end.
(* silofs_hmapq_lookup, lib/hmdq/hmapq.c:604-614 *)
Definition hmapq_lookup (c : cls) (k : key) : C (option Z) :=
  s <- cget ;;
  r <- find_in k (hkey_hash_of k) (chain_of (lc_hm s c) (hkey_hash_of k)) ;;
  match r with
  | Some i => n <- node_of i ;; cassert (negb (n_ref n <? 0) && n_mapped n) ;;; cret r
  | None => cret r
  end.

(* silofs_hmapq_unmap with hmapq_unmap, lib/hmdq/hmapq.c:616-621 *)
Definition hmapq_unmap (c : cls) (i : Z) : C unit :=
  n <- node_of i ;; if n_mapped n then hunmap c i ;;; add_size c (-1) else cret tt.
(* silofs_hmapq_remove, lib/hmdq/hmapq.c:637-644 *)
Definition hmapq_remove (c : cls) (i : Z) : C unit := hmapq_unmap c i ;;; lru_remove c i.

(* hmqe_is_lru_front, lib/hmdq/hmapq.c:415-422 *)
Definition is_front (i : Z) (l : list Z) : bool := match l with a :: _ => a =? i | [] => false end.
Definition is_second (i : Z) (l : list Z) : bool := match l with _ :: b :: _ => b =? i | _ => false end.
(* hmqe_need_relru, lib/hmdq/hmapq.c:424-446 *)
Definition need_relru (i : Z) (n : node) (h : hmapq) : bool :=
  if is_front i (hq_lru h) then false
  else if is_second i (hq_lru h) then false
  else if hq_sz h <? 16 then false
  else negb (n_lhit n <? 4).
(* hmapq_promote_lru with hmqe_relru, lib/hmdq/hmapq.c:448-454,654-665 *)
Definition promote_lru (c : cls) (i : Z) (now : bool) : C unit :=
  upd i (fun n => set_lhit n (n_lhit n + 1)) ;;; n <- node_of i ;; s <- cget ;;
  let h := lc_hm s c in
  if negb (is_front i (hq_lru h)) && (now || need_relru i n h)
  then sanitize i ;;; lru_remove c i ;;; lru_push c i ;;; upd i (fun n => set_lhit n 0)
  else cret tt.
(* hmqe_need_promote_hmap, lib/hmdq/hmapq.c:356-369; the head of an empty chain is not an element *)
Definition need_promote_hmap (i : Z) (n : node) (l : list Z) : C bool :=
  match l with
  | [] => cbad
  | a :: _ => if negb (a =? i) && negb (is_second i l)
              then sanitize a ;;; m <- node_of a ;; cret (n_hhit m + 2 <? n_hhit n)
              else cret false
  end.
(* hmapq_promote_hlnk with hmqe_promote_hmap, lib/hmdq/hmapq.c:382-391,667-676 *)
Definition promote_hlnk (c : cls) (i : Z) : C unit :=
  upd i (fun n => set_hhit n (n_hhit n + 1)) ;;; n <- node_of i ;; s <- cget ;;
  b <- need_promote_hmap i n (chain_of (lc_hm s c) (n_hash n)) ;;
  if (b : bool) then
    cassert (negb (n_ref n <? 0) && n_mapped n) ;;; chain_remove c i ;;; s' <- cget ;;
    let h := lc_hm s' c in cput (put_hm s' c (set_chain h (n_hash n) (i :: chain_of h (n_hash n))))
  else cret tt.
(* silofs_hmapq_promote, lib/hmdq/hmapq.c:670-677 *)
Definition hmapq_promote (c : cls) (i : Z) (now : bool) : C unit :=
  promote_lru c i now ;;; n <- node_of i ;; if n_mapped n then promote_hlnk c i else cret tt.

(* silofs_hmapq_get_lru, lib/hmdq/hmapq.c:679-688 *)
Definition last_of (l : list Z) : option Z := match rev l with [] => None | a :: _ => Some a end.
Definition get_lru (c : cls) : C (option Z) :=
  s <- cget ;;
  if 0 <? hq_sz (lc_hm s c) then
    match last_of (hq_lru (lc_hm s c)) with Some i => sanitize i ;;; cret (Some i) | None => cbad end
  else cret None.

(* the link before that of an element: None for the head of the list *)
Fixpoint prev_in (p : option Z) (i : Z) (l : list Z) : option Z :=
  match l with [] => None | a :: t => if a =? i then p else prev_in (Some a) i t end.
(* silofs_hmapq_riterate, lib/hmdq/hmapq.c:692-707: n is the count, itr the current link; the call-back
   gives true to stop; the result is the element at which it stopped *)
Fixpoint riter (c : cls) (cb : Z -> C bool) (n : nat) (itr : option Z) : C (option Z) :=
  match n, itr with
  | S n', Some i =>
      sanitize i ;;; s <- cget ;;
      let itr' := prev_in None i (hq_lru (lc_hm s c)) in
      stop <- cb i ;; if (stop : bool) then cret (Some i) else riter c cb n' itr'
  | _, _ => cret None
  end.
Definition riterate (c : cls) (limit : Z) (cb : Z -> C bool) : C (option Z) :=
  s <- cget ;; let h := lc_hm s c in riter c cb (Z.to_nat (Z.min limit (hq_sz h))) (last_of (hq_lru h)).

(* silofs_hmapq_overpop, lib/hmdq/hmapq.c (end of file) *)
Definition overpop (h : hmapq) : Z :=
  if hq_nslots h <? hq_size h then hq_size h - hq_nslots h
  else if 2 * hq_size h <? hq_sz h then hq_sz h - 2 * hq_size h
  else 0.

(* --- lib/lcache.c -------------------------------------------------------------------------- *)
(* dirtyqs_get, lib/lcache.c:56-70 *)
Definition dirtyq_by (lt : Z) : C qid :=
  if lt =? LT_INODE then cret QIis
  else if ltype_isvnode lt then cret QVnis
  else cassert ((LT_BOOTREC <=? lt) && (lt <=? LT_SPLEAF)) ;;; cret QUnis.

(* silofs_lni_isevictable, lib/lnodes.c:181-189, with silofs_hmqe_is_evictable, lib/hmdq/hmapq.c:499-503,506-510 *)
Definition lni_isevictable (i : Z) : C bool :=
  n <- node_of i ;;
  if n_pinned n then cret false
  else sanitize i ;;; cret (negb (n_inq n) && (n_ref n =? 0)).
(* silofs_ii_isevictable, lib/inode.c:552-561 *)
Definition ii_isevictable (i : Z) : C bool :=
  n <- node_of i ;; s <- cget ;;
  if 0 <? n_nopen n then cret false
  else if 0 <? dq_sz (lc_q s (QIno i)) then cret false
  else lni_isevictable i.
(* test_evictable_vni, lib/lcache.c:447-459; silofs_uni_isevictable, lib/lnodes.c:376-381 *)
Definition isevictable (c : cls) (i : Z) : C bool :=
  match c with
  | CV => n <- node_of i ;; if is_inode n then ii_isevictable i else lni_isevictable i
  | CU => lni_isevictable i
  end.

(* silofs_del_vnode, silofs_del_unode (lib/lnodes.c): ii_del 860-869, ii_fini 813-825, vni_fini 426-434,
   lni_fini 136-143, silofs_hmqe_fini lib/hmdq/hmapq.c:328-341, silofs_dqe_fini lib/hmdq/dirtyq.c:93-101 *)
Definition del_node (i : Z) : C unit :=
  n <- node_of i ;; s <- cget ;;
  (if is_inode n
   then cassert ((dq_sz (lc_q s (QIno i)) =? 0) && (dq_accum (lc_q s (QIno i)) =? 0) && (0 <=? n_nopen n))
   else cret tt) ;;;
  sanitize i ;;; cassert (n_ref n =? 0) ;;; cassert ((0 <? n_sz n) && negb (n_inq n)) ;;;
  cput (put_node (if is_inode n then put_q s (QIno i) (mkDq [] 0 0) else s) i None).

(* lcache_remove_vni, lcache_evict_vni, lib/lcache.c:519-525; lcache_remove_uni, lcache_evict_uni, 185-192 *)
Definition lcache_evict (c : cls) (i : Z) : C unit :=
  (match c with CU => lni_undirtify i | CV => cret tt end) ;;;
  hmapq_remove c i ;;;
  (match c with CV => upd i (fun n => set_forgot n false) | CU => cret tt end) ;;;
  del_node i.

(* lcache_find_relru_vni, lib/lcache.c:499-510; lcache_find_relru_uni, 166-177 *)
Definition lcache_lookup (c : cls) (k : key) : C (option Z) :=
  r <- hmapq_lookup c k ;;
  match r with Some i => hmapq_promote c i false ;;; cret (Some i) | None => cret None end.

(* lcache_evict_or_relru_vni, lib/lcache.c:549-562; lcache_evict_or_relru_uni, 215-228 *)
Definition evict_or_relru (c : cls) (i : Z) : C bool :=
  e <- isevictable c i ;;
  if (e : bool) then lcache_evict c i ;;; cret true else hmapq_promote c i true ;;; cret false.

(* lcache_shrink_or_relru_vnis, lib/lcache.c:564-587, and _unis, 230-253: the loop, with n rounds to
   go, from round i, and the number evicted so far *)
Fixpoint shrink_loop (c : cls) (now : bool) (n : nat) (i ev : Z) : C Z :=
  match n with
  | O => cret ev
  | S n' =>
      r <- get_lru c ;;
      match r with
      | None => cret ev
      | Some x =>
          ok <- evict_or_relru c x ;;
          if (ok : bool) then shrink_loop c now n' (i + 1) (ev + 1)
          else if negb now && (match c with CV => (0 <? i) || (0 <? ev) | CU => true end) then cret ev
          else shrink_loop c now n' (i + 1) ev
      end
  end.
Definition shrink (c : cls) (cnt : Z) (now : bool) : C Z :=
  s <- cget ;; shrink_loop c now (Z.to_nat (Z.min cnt (hq_sz (lc_hm s c)))) 0 0.

(* lcache_find_evictable_vni, lib/lcache.c:472-480, and _uni, 127-147 *)
Definition find_evictable (c : cls) : C (option Z) := riterate c 10 (isevictable c).
(* lcache_drop_evictable_vnis, lib/lcache.c:598-602, and _unis, 255-267 *)
Definition drop_evictable (c : cls) : C unit :=
  riterate c 4294967295 (fun i => evict_or_relru c i ;;; cret false) ;;; cret tt.

(* lcache_evict_some, lib/lcache.c:725-744; the first part for one of the caches *)
Definition evict_one (c : cls) : C bool :=
  r <- find_evictable c ;;
  match r with
  | None => cret false
  | Some i => e <- isevictable c i ;; if (e : bool) then lcache_evict c i ;;; cret true else cret false
  end.
Definition evict_some : C unit :=
  a <- evict_one CV ;; b <- evict_one CU ;;
  if (a : bool) || (b : bool) then cret tt
  else shrink CV 1 false ;;; shrink CU 1 false ;;; cret tt.

(* silofs_new_vnode, silofs_new_unode (lib/lnodes.c): an object with hmqe_init, lib/hmdq/hmapq.c:314-326,
   lni_init, lib/lnodes.c:123-133, and for an inode i_nopen and i_dq_vnis, 799-811 *)
Definition new_node (k : key) : C Z :=
  s <- cget ;;
  cassert (0 <? ltype_size (key_ltype k)) ;;;
  cput (put_next (put_q (put_node s (lc_next s)
          (Some (mkNode k 0 0 0 false false 0 (ltype_size (key_ltype k)) None false false 0)))
          (QIno (lc_next s)) (mkDq [] 0 0)) (lc_next s + 1)) ;;;
  cret (lc_next s).
(* lcache_require_vni, lib/lcache.c:623-638, and _uni, 330-345; al: whether memory is got, by attempt *)
Fixpoint lcache_require (k : key) (retry : nat) (al : list bool) : C (option Z) :=
  match retry with
  | O => cret None
  | S r => if hd false al then i <- new_node k ;; cret (Some i)
           else evict_some ;;; lcache_require k r (tl al)
  end.
(* lcache_create_vni, lib/lcache.c:672-684, with lcache_set_dq_of_vni 664-670 and lcache_store_vni 533-538;
   lcache_create_uni, 365-378, without lcache_track_uaddr *)
Definition lcache_create (c : cls) (k : key) (al : list bool) : C (option Z) :=
  r <- lcache_require k 4 al ;;
  match r with
  | None => cret None
  | Some i =>
      q <- dirtyq_by (key_ltype k) ;; dqe_setq i q ;;;
      upd i (fun n => mkNode (n_key n) (hkey_hash_of k) (n_hhit n) (n_lhit n) (n_mapped n) (n_forgot n)
                             (n_ref n) (n_sz n) (n_dq n) (n_inq n) (n_pinned n) (n_nopen n)) ;;;
      hmapq_store c i ;;; cret (Some i)
  end.

(* lcache_forget_vni, lib/lcache.c:646-656 *)
Definition forget_vni (i : Z) : C unit :=
  lni_undirtify i ;;; sanitize i ;;; n <- node_of i ;;
  if 0 <? n_ref n then hmapq_unmap CV i ;;; upd i (fun n => set_forgot n true)
  else lcache_evict CV i.
(* lcache_forget_uni, lib/lcache.c:390-395, without lcache_forget_uaddr *)
Definition forget_uni (i : Z) : C unit := lcache_evict CU i.

(* silofs_lcache_reditify_vni, lib/lcache.c:696-702 *)
Definition reditify_vni (i : Z) : C unit :=
  lni_undirtify i ;;; n <- node_of i ;; q <- dirtyq_by (key_ltype (n_key n)) ;; dqe_setq i q ;;;
  vni_dirtify i None.

(* silofs_ii_undirtify_vnis, lib/inode.c:1383-1396: n bounds the rounds *)
Fixpoint undirtify_vnis (n : nat) (p : Z) : C unit :=
  node_of p ;;; s <- cget ;;
  match dq_l (lc_q s (QIno p)) with
  | [] => cret tt
  | i :: _ =>
      match n with
      | O => cbad
      | S n' => cassert (0 <? dq_sz (lc_q s (QIno p))) ;;; lni_undirtify i ;;; undirtify_vnis n' p
      end
  end.

(* lcache_relax_by_niter, lib/lcache.c:790-814: n rounds to go, from round i *)
Fixpoint relax_loop (now : bool) (cnt : Z) (n : nat) (i total : Z) : C Z :=
  match n with
  | O => cret total
  | S n' =>
      nv <- shrink CV (i + 1) now ;; s <- cget ;;
      nu <- (if (nv =? 0) || now || (128 <? hq_size (lc_hm s CU)) then shrink CU cnt now else cret 0) ;;
      if (nv =? 0) && (nu =? 0) then cret total else relax_loop now cnt n' (i + 1) (total + nv + nu)
  end.
(* lcache_relax_by_overpop, lib/lcache.c:826-843 *)
Definition relax_by_overpop : C Z :=
  s <- cget ;;
  a <- (if 0 <? overpop (lc_hm s CV) then shrink CV (Z.min (overpop (lc_hm s CV)) 8) true else cret 0) ;;
  s' <- cget ;;
  b <- (if 0 <? overpop (lc_hm s' CU) then shrink CU (Z.min (overpop (lc_hm s' CU)) 2) true else cret 0) ;;
  cret (a + b).
(* lcache_calc_niter, lib/lcache.c:760-783: press is the memory pressure in percents *)
Definition calc_niter (press : Z) (now intern opstart idle : bool) : Z :=
  let n := if 60 <? press then 10
           else if 20 <? press then (if intern then 5 else 0) + (if opstart then 1 else 0)
           else 0 in
  let n := if now then n + 2 + Z.min press 5 else n in
  if (n =? 0) && idle then 2 + Z.min press 3 else n.
(* silofs_lcache_relax, lib/lcache.c:852-864, without lcache_try_relax_uamap *)
Definition lcache_relax (press : Z) (now intern opstart idle : bool) : C unit :=
  let n := calc_niter press now intern opstart idle in
  relax_loop now (if now || (1 <? n) then 2 else 1) (Z.to_nat n) 0 0 ;;; relax_by_overpop ;;; cret tt.

(* lcache_drop_evictables, lib/lcache.c:878-890: n rounds to go *)
Definition usage_sum (s : lcache) : Z := hq_size (lc_hm s CV) + hq_size (lc_hm s CU).
Fixpoint drop_loop (n : nat) (pre : Z) : C unit :=
  match n with
  | O => cret tt
  | S n' =>
      s <- cget ;;
      if usage_sum s =? pre then cret tt
      else drop_evictable CV ;;; drop_evictable CU ;;; drop_loop n' (usage_sum s)
  end.
(* silofs_lcache_drop, lib/lcache.c:902-907, without the maps *)
Definition lcache_drop : C unit := drop_loop 10 0.

(* silofs_lcache_init, lib/lcache.c:977-1006 *)
Definition lcache_init (nv nu : Z) : lcache :=
  mkLc (fun _ => None)
       (fun c => mkHm [] 0 (fun _ => []) (match c with CV => nv | CU => nu end) 0)
       (fun _ => mkDq [] 0 0) 0.
End Hash.
Arguments COk {A} s a.
Arguments CBad {A}.
