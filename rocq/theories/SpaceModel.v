(* Space allocation: block references of space-map leaves (lib/spmaps.c), the claim and release
   of address ranges (lib/claim.c), the leaves and nodes made on demand (lib/vstage.c) and the
   space statistics (lib/stats.c).

   Each kind of object (ltype) has an address space, a tree of space maps and a free-range cache
   of its own; all objects of one kind have the same size.  Nodes of the tree are kept only as
   present or not, with the volume id (a number) they belong to: what they map to is the subject
   of MapModel.v.  Every step that can fail for want of memory or by an input/output error takes
   its outcome from a list of booleans (an empty list: success).  Counters and offsets are
   unbounded integers. *)
From Verif Require Import Base AddrModel MapModel SpaModel.

Definition NKB := 64.
(* SILOFS_VSPACE_SIZE_MAX, include/silofs/defs.h:135; stored as the size of the address space *)
Definition VSPACE_END := 2 ^ 58.

(* ---- bit masks ---- *)

(* mask_of, lib/spmaps.c:300-311 *)
Definition mask_of (ki nk : Z) : Z :=
  if nk <? 64 then Z.land (Z.shiftl (Z.ones nk) ki) (Z.ones 64) else Z.ones 64.
(* bk_state_mask_of, lib/spmaps.c:313-323 *)
Definition bk_mask (ki nk : Z) : Z := if ki <? 64 then mask_of ki (Z.min nk (64 - ki)) else 0.
(* bk_state_mask_of_other, lib/spmaps.c:330-337 *)
Definition bk_mask_other (ki nk : Z) : Z := Z.ldiff (Z.ones 64) (bk_mask ki nk).
(* bk_state_has_mask, bk_state_has_mask_none, bk_state_has_mask_any, lib/spmaps.c:344-360 *)
Definition has_mask (st m : Z) : bool := Z.land st m =? m.
Definition has_mask_none (st m : Z) : bool := Z.land st m =? 0.
Definition has_mask_any (st m : Z) : bool := 0 <? Z.land st m.
(* bk_state_set_mask, bk_state_unset_mask, lib/spmaps.c:362-372 *)
Definition set_mask (st m : Z) : Z := Z.lor st m.
Definition unset_mask (st m : Z) : Z := Z.ldiff st m.

Fixpoint sumn (n : nat) (f : Z -> Z) : Z :=
  match n with O => 0 | S k => sumn k f + f (Z.of_nat k) end.
(* bk_state_popcount, lib/spmaps.c:374-377 *)
Definition popcount (st : Z) : Z := sumn 64 (fun j => Z.b2z (Z.testbit st j)).

(* ---- block references ---- *)

(* struct silofs_bk_ref, include/silofs/defs.h: bkr_allocated, bkr_unwritten, bkr_dbkref *)
Record bkref := mkBkr { bk_alloc : Z; bk_unwr : Z; bk_dbk : Z }.
(* bkr_clear_alloc_state, lib/spmaps.c:580-588; also the state set by bkr_init, 597-600 *)
Definition bkr_zero : bkref := mkBkr 0 0 0.

(* bkr_test_allocated_at, bkr_test_allocated_other, lib/spmaps.c:445-476 *)
Definition bkr_test_allocated_at (b : bkref) (kbn nkb : Z) : bool := has_mask (bk_alloc b) (bk_mask kbn nkb).
Definition bkr_test_allocated_other (b : bkref) (kbn nkb : Z) : bool := has_mask_any (bk_alloc b) (bk_mask_other kbn nkb).
(* bkr_freecnt, bkr_isfull, bkr_may_alloc, lib/spmaps.c:512-520,609-612 *)
Definition bkr_freecnt (b : bkref) : Z := NKB - popcount (bk_alloc b).
Definition bkr_isfull (b : bkref) : bool := bkr_test_allocated_at b 0 NKB.
Definition bkr_may_alloc (b : bkref) (nkb : Z) : bool := negb (bkr_isfull b) && (nkb <=? bkr_freecnt b).

(* bkr_find_free, lib/spmaps.c:614-630; the loop makes at most 64 rounds, as nkb >= 1 *)
Fixpoint find_kbn (fuel : nat) (st nkb kbn : Z) {struct fuel} : option Z :=
  match fuel with
  | O => None
  | S f => if kbn + nkb <=? NKB
           then if has_mask_none st (bk_mask kbn nkb) then Some kbn else find_kbn f st nkb (kbn + nkb)
           else None
  end.
Definition bkr_find_free (b : bkref) (nkb : Z) : option Z := find_kbn 64 (bk_alloc b) nkb 0.

(* ---- leaves ---- *)

(* struct silofs_spmap_leaf (sl_subrefs) with the counter sl_nused_bytes of
   struct silofs_spleaf_info; sl_ver: the volume id the leaf was made for *)
Record sleaf := mkSleaf { sl_ver : Z; sl_bks : Z -> bkref; sl_nused : Z }.

(* kbn_of, lib/spmaps.c:42-45 *)
Definition kbn_of (voff : Z) : Z := (voff / KB_SIZE) mod NKB.
Definition isdatabk (t : Z) : bool := t =? LT_DATABK.
Definition leaf_bkr (l : sleaf) (voff : Z) : bkref := sl_bks l (leaf_slot voff).
Definition leaf_set_bkr (l : sleaf) (voff : Z) (b : bkref) : sleaf :=
  mkSleaf (sl_ver l) (fun s => if s =? leaf_slot voff then b else sl_bks l s) (sl_nused l).
Definition leaf_set_nused (l : sleaf) (n : Z) : sleaf := mkSleaf (sl_ver l) (sl_bks l) n.

(* spleaf_is_allocated_at, lib/spmaps.c:753-768 *)
Definition is_allocated_at (l : sleaf) (t voff : Z) : bool :=
  let b := leaf_bkr l voff in
  if isdatabk t then 0 <? bk_dbk b else bkr_test_allocated_at b (kbn_of voff) (ltype_nkbs t).
(* spleaf_has_allocated_with, lib/spmaps.c:770-785 *)
Definition has_allocated_with (l : sleaf) (t voff : Z) : bool :=
  let b := leaf_bkr l voff in
  if isdatabk t then 0 <? bk_dbk b else bkr_test_allocated_other b (kbn_of voff) (ltype_nkbs t).
(* spleaf_is_last_allocated, lib/spmaps.c:787-802 *)
Definition is_last_allocated (l : sleaf) (t voff : Z) : bool :=
  let b := leaf_bkr l voff in
  if isdatabk t then bk_dbk b =? 1 else negb (bkr_test_allocated_other b (kbn_of voff) (ltype_nkbs t)).
(* spleaf_ref_allocated_at, lib/spmaps.c:838-849 *)
Definition ref_allocated_at (l : sleaf) (t voff : Z) : sleaf :=
  let b := leaf_bkr l voff in
  leaf_set_bkr l voff
    (mkBkr (set_mask (bk_alloc b) (bk_mask (kbn_of voff) (ltype_nkbs t))) (bk_unwr b)
           (if isdatabk t then bk_dbk b + 1 else bk_dbk b)).
(* spleaf_unref_allocated_at, lib/spmaps.c:851-864 *)
Definition unref_allocated_at (l : sleaf) (t voff : Z) : sleaf :=
  let b := leaf_bkr l voff in
  let d := if isdatabk t then bk_dbk b - 1 else bk_dbk b in
  leaf_set_bkr l voff
    (mkBkr (if (d =? 0) || (ltype_nkbs t <? NKB)
            then unset_mask (bk_alloc b) (bk_mask (kbn_of voff) (ltype_nkbs t)) else bk_alloc b)
           (bk_unwr b) d).
(* spleaf_set_unwritten_at, spleaf_clear_unwritten_at, spleaf_test_unwritten_at,
   lib/spmaps.c:804-826 *)
Definition set_unwritten_at (l : sleaf) (t voff : Z) : sleaf :=
  let b := leaf_bkr l voff in
  leaf_set_bkr l voff (mkBkr (bk_alloc b) (set_mask (bk_unwr b) (bk_mask (kbn_of voff) (ltype_nkbs t))) (bk_dbk b)).
Definition clear_unwritten_at (l : sleaf) (t voff : Z) : sleaf :=
  let b := leaf_bkr l voff in
  leaf_set_bkr l voff (mkBkr (bk_alloc b) (unset_mask (bk_unwr b) (bk_mask (kbn_of voff) (ltype_nkbs t))) (bk_dbk b)).
Definition test_unwritten_at (l : sleaf) (t voff : Z) : bool :=
  has_mask (bk_unwr (leaf_bkr l voff)) (bk_mask (kbn_of voff) (ltype_nkbs t)).
(* spleaf_renew_bk_at, lib/spmaps.c:866-873 *)
Definition renew_bk_at (l : sleaf) (voff : Z) : sleaf := leaf_set_bkr l voff bkr_zero.

(* spleaf_calc_total_usecnt and spleaf_sum_nbytes_used, lib/spmaps.c:952-968 *)
Definition sum_nbytes_used (l : sleaf) : Z := sumn 256 (fun s => popcount (bk_alloc (sl_bks l s))) * KB_SIZE.
(* silofs_sli_update_nused, lib/spmaps.c:1150-1154 *)
Definition update_nused (l : sleaf) : sleaf := leaf_set_nused l (sum_nbytes_used l).

(* spleaf_find_nfree_at, spleaf_find_free, lib/spmaps.c:875-905 *)
Fixpoint find_bn (n : nat) (l : sleaf) (t bn : Z) {struct n} : option (Z * Z) :=
  match n with
  | O => None
  | S k =>
    let b := sl_bks l bn in
    match (if bkr_may_alloc b (ltype_nkbs t) then bkr_find_free b (ltype_nkbs t) else None) with
    | Some kbn => Some (bn, kbn)
    | None => find_bn k l t (bn + 1)
    end
  end.
(* silofs_vaddr_by_spleaf, lib/addr/vaddr.c:220-229 *)
Definition voff_by_spleaf (base bn kbn : Z) : Z := (base / LBK_SIZE + bn) * LBK_SIZE + kbn * KB_SIZE.
(* silofs_sli_find_free_space, lib/spmaps.c:1237-1252, with sli_cap_allocate 1224-1235 and
   sli_find_free_space_from 1189-1214; base: start of the range of the leaf *)
Definition find_free_space (l : sleaf) (base from t : Z) : option Z :=
  if sl_nused l + ltype_size t <=? LEAF_SPAN then
    let beg := Z.max from base in
    if base + LEAF_SPAN <=? beg then None
    else let bn := (beg - base) / LBK_SIZE in
         match find_bn (Z.to_nat (NCHILDS - bn)) l t bn with
         | Some (bn, kbn) => Some (voff_by_spleaf base bn kbn)
         | None => None
         end
  else None.

(* silofs_sli_mark_allocated_space, lib/spmaps.c:1254-1268 *)
Definition mark_allocated (l : sleaf) (t voff : Z) : sleaf :=
  let l := leaf_set_nused l (sl_nused l + ltype_size t) in
  let l := ref_allocated_at l t voff in
  if ltype_isdata t then set_unwritten_at l t voff else l.
(* silofs_sli_unref_allocated_space, lib/spmaps.c:1281-1298 *)
Definition unref_allocated (l : sleaf) (t voff : Z) : sleaf :=
  let last := is_last_allocated l t voff in
  let l := unref_allocated_at l t voff in
  let l := if is_allocated_at l t voff then l else leaf_set_nused l (sl_nused l - ltype_size t) in
  if last then renew_bk_at l voff else l.
(* silofs_sli_dbkref_at, lib/spmaps.c:1300-1309 *)
Definition dbkref_at (l : sleaf) (t voff : Z) : Z := if isdatabk t then bk_dbk (leaf_bkr l voff) else 0.

(* ---- statistics ---- *)

(* silofs_cpu_to_gauge, silofs_gauge_to_cpu, lib/stats.c:29-55 *)
Definition cpu_to_gauge (k : Z) : Z := if k <? 0 then Z.lor (u64 (- k)) (2 ^ 63) else u64 k.
Definition gauge_to_cpu (n : Z) : Z :=
  if Z.testbit n 63 then - (Z.ldiff n (2 ^ 63)) else Z.ldiff n (2 ^ 63).

(* ---- the file system's space ---- *)

(* sv_cobjs, sv_cbks: gauges of spst_curr; sv_bobjs, sv_bbks: of spst_base, kept decoded *)
Record space := mkSpace {
  sv_ver : Z;
  sv_leaf : Z -> Z -> option sleaf;
  sv_node : Z -> Z -> Z -> option Z;
  sv_cache : Z -> spamap;
  sv_cobjs : Z -> Z; sv_cbks : Z -> Z; sv_bobjs : Z -> Z; sv_bbks : Z -> Z;
  sv_cap : Z }.

Definition set_leaf (s : space) (t i : Z) (l : sleaf) : space :=
  mkSpace (sv_ver s) (fun t' i' => if (t' =? t) && (i' =? i) then Some l else sv_leaf s t' i') (sv_node s)
          (sv_cache s) (sv_cobjs s) (sv_cbks s) (sv_bobjs s) (sv_bbks s) (sv_cap s).
Definition set_node (s : space) (t h i v : Z) : space :=
  mkSpace (sv_ver s) (sv_leaf s) (fun t' h' i' => if (t' =? t) && (h' =? h) && (i' =? i) then Some v else sv_node s t' h' i')
          (sv_cache s) (sv_cobjs s) (sv_cbks s) (sv_bobjs s) (sv_bbks s) (sv_cap s).
Definition set_cache (s : space) (t : Z) (m : spamap) : space :=
  mkSpace (sv_ver s) (sv_leaf s) (sv_node s) (fset (sv_cache s) t m)
          (sv_cobjs s) (sv_cbks s) (sv_bobjs s) (sv_bbks s) (sv_cap s).
(* silofs_sti_update_objs, silofs_sti_update_bks, lib/stats.c:585-601 *)
Definition stats_add (s : space) (t nobjs nbks : Z) : space :=
  mkSpace (sv_ver s) (sv_leaf s) (sv_node s) (sv_cache s)
          (fset (sv_cobjs s) t (sv_cobjs s t + nobjs)) (fset (sv_cbks s) t (sv_cbks s t + nbks))
          (sv_bobjs s) (sv_bbks s) (sv_cap s).

(* silofs_sti_collect_stats, lib/stats.c:603-611 *)
Definition objs (s : space) (t : Z) : Z := sv_cobjs s t + sv_bobjs s t.
Definition bks (s : space) (t : Z) : Z := sv_cbks s t + sv_bbks s t.
(* the kinds that have a gauge: spgs_gauge_of, lib/stats.c:366-413 *)
Definition GAUGED : list Z :=
  [LT_SUPER; LT_SPNODE; LT_SPLEAF; LT_INODE; LT_XANODE; LT_SYMVAL; LT_DTNODE; LT_FTNODE; LT_DATA1K; LT_DATA4K; LT_DATABK].
(* silofs_sti_bytes_used, lib/stats.c:620-634 with spgs_sum 421-434: a size_t *)
Definition bytes_used (s : space) : Z := u64 (zsum (map (fun t => objs s t * ltype_size t) GAUGED)).
(* sti_inodes_max, lib/stats.c:645-648 *)
Definition inodes_max (s : space) : Z := sv_cap s / 1024 / 4.
(* silofs_sti_mayalloc_some, silofs_sti_mayalloc_data, silofs_sti_mayalloc_meta, lib/stats.c:658-694 *)
Definition mayalloc_some (s : space) (n : Z) : bool := u64 (n + bytes_used s + LBK_SIZE) <? sv_cap s.
Definition mayalloc_data (s : space) (n : Z) : bool := u64 (bytes_used s + n) <=? 31 * sv_cap s / 32.
Definition mayalloc_meta (s : space) (n : Z) (new_file : bool) : bool :=
  if sv_cap s <? u64 (bytes_used s + n) then false
  else if new_file then u64 (objs s LT_INODE) <? inodes_max s else true.
(* silofs_sti_fill_statvfs, lib/stats.c:712-735: f_blocks, f_bfree, f_files, f_ffree *)
Definition statvfs (s : space) : Z * Z * Z * Z :=
  (sv_cap s / 4096, u64 (sv_cap s - bytes_used s) / 4096, inodes_max s, u64 (inodes_max s - objs s LT_INODE)).

(* outcome of a step; Nospc: -ENOSPC, Fail: another error, Ub: the undefined behaviour of
   spamap_insert when memory is exhausted (SpaModel.v) *)
Inductive out (A : Type) := Ok (a : A) | Nospc | Fail | Ub.
Arguments Ok {A}. Arguments Nospc {A}. Arguments Fail {A}. Arguments Ub {A}.
Notation M A := (space -> list bool -> space * list bool * out A).
Definition ret {A} (a : A) : M A := fun s o => (s, o, Ok a).
Definition stop {A} (e : out A) : M A := fun s o => (s, o, e).
Definition bind {A B} (m : M A) (f : A -> M B) : M B := fun s o =>
  let '(s, o, r) := m s o in
  match r with Ok a => f a s o | Nospc => (s, o, Nospc) | Fail => (s, o, Fail) | Ub => (s, o, Ub) end.
Definition get : M space := fun s o => (s, o, Ok s).
Definition put (f : space -> space) : M unit := fun s o => (f s, o, Ok tt).
(* the next outcome of the environment *)
Definition tick : M bool := fun s o => (s, tl o, Ok (hd true o)).
Definition may_fail : M unit := bind tick (fun ok => if ok then ret tt else stop Fail).

(* silofs_spamaps_store, lib/spxmap.c:520-531: errors are ignored by all callers *)
Definition cache_store (t off len : Z) : M unit :=
  bind tick (fun a s o =>
    match spamap_add (sv_cache s t) off len a with
    | SOk m | SErr m => (set_cache s t m, o, Ok tt)
    | SUb => (s, o, Ub)
    end).

(* vstgc_require_spnode4_of, lib/vstage.c:988-997 (heights 3..1: 1171-1180, 1354-1363, 1537-1546):
   present nodes are staged and, when of an older volume id, copied; absent ones are made *)
Definition require_spnode (t h voff : Z) : M unit :=
  bind may_fail (fun _ => bind get (fun s =>
    let i := voff / space_span h in
    let made := put (fun s => stats_add (set_node s t h i (sv_ver s)) LT_SPNODE 1 1) in
    match sv_node s t h i with
    | Some v => if v =? sv_ver s then ret tt else made
    | None => made
    end)).
(* vstgc_require_spleaf, lib/vstage.c:1766-1774, with vstgc_spawn_spleaf 1613-1628,
   vstgc_do_clone_spleaf 1630-1642, vstgc_spawn_bind_spleaf_at 1734-1747 and
   vstgc_track_spawned_spleaf 1723-1732 *)
Definition require_spleaf (t voff : Z) : M unit :=
  bind may_fail (fun _ => bind get (fun s =>
    let i := leaf_index voff in
    match sv_leaf s t i with
    | Some l =>
      if sl_ver l =? sv_ver s then ret tt
      else put (fun s => stats_add (set_leaf s t i (mkSleaf (sv_ver s) (sl_bks l) (sl_nused l))) LT_SPLEAF 1 1)
    | None =>
      bind (put (fun s => stats_add (set_leaf s t i (mkSleaf (sv_ver s) (fun _ => bkr_zero) 0)) LT_SPLEAF 1 1))
           (fun _ => cache_store t (i * LEAF_SPAN) LEAF_SPAN)
    end)).
(* silofs_require_spmaps_of, lib/vstage.c:1934-1959 (mode SILOFS_STG_COW) *)
Definition require_spmaps (t voff : Z) : M unit :=
  bind (require_spnode t H_SPNODE4 voff) (fun _ => bind (require_spnode t H_SPNODE3 voff) (fun _ =>
  bind (require_spnode t H_SPNODE2 voff) (fun _ => bind (require_spnode t H_SPNODE1 voff) (fun _ =>
  require_spleaf t voff)))).

(* the leaf that was just required *)
Definition with_leaf {A} (t voff : Z) (f : sleaf -> M A) : M A :=
  bind get (fun s => match sv_leaf s t (leaf_index voff) with Some l => f l | None => stop Fail end).

(* off_to_spleaf_next, lib/claim.c:44-49 *)
Definition spleaf_next (voff : Z) : Z := (voff + LEAF_SPAN) / LEAF_SPAN * LEAF_SPAN.
(* spac_do_find_free_vspace_at, lib/claim.c:208-224 *)
Definition find_free_at (t voff : Z) : M Z :=
  with_leaf t voff (fun l =>
    match find_free_space l (leaf_index voff * LEAF_SPAN) voff t with
    | Some v => if v + ltype_size t <=? VSPACE_END then ret v else stop Nospc
    | None => stop Nospc
    end).
(* spac_require_vspace_at, lib/claim.c:238-256; the first tick is the staging of the node *)
Definition require_vspace_at (t voff : Z) : M Z :=
  bind may_fail (fun _ => bind (require_spmaps t voff) (fun _ => find_free_at t voff)).

(* a loop of at most p rounds that ends when the body returns inr *)
Fixpoint ploop {S R : Type} (p : positive) (f : S -> S + R) (s : S) {struct p} : S + R :=
  match p with
  | xH => f s
  | xO q => match ploop q f s with inl s' => ploop q f s' | inr r => inr r end
  | xI q => match f s with
            | inl s' => match ploop q f s' with inl s'' => ploop q f s'' | inr r => inr r end
            | inr r => inr r
            end
  end.
(* one round of spac_require_vspace_by_spmaps, lib/claim.c:258-274 *)
Definition scan_body (t : Z) (st : space * list bool * Z) : (space * list bool * Z) + (space * list bool * out Z) :=
  let '(s, o, voff) := st in
  if voff <? VSPACE_END then
    let '(s, o, r) := require_vspace_at t voff s o in
    match r with Nospc => inl (s, o, spleaf_next voff) | _ => inr (s, o, r) end
  else inr (s, o, Nospc).
(* 2^34 leaves and one round to see the end; SpaceProofs.scan_ends shows that is enough *)
Definition SCAN_ROUNDS : positive := Z.to_pos (VSPACE_END / LEAF_SPAN + 1).
Definition require_by_spmaps (t : Z) : M Z := fun s o =>
  match ploop SCAN_ROUNDS (scan_body t) (s, o, sp_hint (sv_cache s t)) with
  | inr r => r
  | inl (s, o, _) => (s, o, Fail)
  end.
(* spac_claim_vspace_from_cache, lib/claim.c:276-289 *)
Definition cache_pop (t : Z) : M (option Z) := fun s o =>
  match spamap_pop (sv_cache s t) (ltype_size t) with
  | Some (m, v) => (set_cache s t m, o, Ok (Some v))
  | None => (s, o, Ok None)
  end.
(* spac_require_unalloc_vspace, lib/claim.c:291-312 *)
Definition require_unalloc (t : Z) : M Z :=
  bind (cache_pop t) (fun r => match r with
  | Some v => ret v
  | None => bind (require_by_spmaps t) (fun v =>
            bind (cache_pop t) (fun r => match r with Some v' => ret v' | None => ret v end))
  end).
(* spac_check_avail_space, lib/claim.c:314-331 *)
Definition check_avail (t : Z) : M unit :=
  bind get (fun s =>
    if mayalloc_some s (ltype_size t) &&
       (if ltype_isdata t then mayalloc_data s (ltype_size t)
        else mayalloc_meta s (ltype_size t) (t =? LT_INODE))
    then ret tt else stop Nospc).
(* spac_check_want_free_vspace, lib/claim.c:333-343 *)
Definition check_want (t voff : Z) : M unit :=
  if off_isnull voff then stop Nospc
  else if voff + ltype_size t <=? VSPACE_END then ret tt else stop Nospc.
(* spac_mark_allocated, lib/claim.c:345-352 with sbi_mark_allocated_at 115-123 *)
Definition mark (t voff : Z) : M unit :=
  with_leaf t voff (fun l => put (fun s =>
    let first := negb (has_allocated_with l t voff) in
    let s := set_leaf s t (leaf_index voff) (mark_allocated l t voff) in
    let s := stats_add s t 1 (if first then 1 else 0) in
    let m := sv_cache s t in
    set_cache s t (mkSpa (sp_lifo m) (sp_ulen m) (sp_ents m) (sp_cap m) voff))).
(* spac_claim_vspace, lib/claim.c:377-405; may_fail: silofs_resolve_llink_of in
   spac_resolve_and_claim 362-375 *)
Definition claim (t : Z) : M Z :=
  bind (check_avail t) (fun _ => bind (require_unalloc t) (fun v =>
  bind (check_want t v) (fun _ => bind (require_spmaps t v) (fun _ =>
  bind may_fail (fun _ => bind (mark t v) (fun _ => ret v)))))).

(* spac_reclaim_vspace, lib/claim.c:529-544, with spac_clear_allocate_at 496-504 and
   spac_try_recache_vspace 430-441.  Punching the segment file of an empty leaf
   (spac_try_reclaim_vlseg) does not change this state. *)
Definition reclaim (t voff : Z) : M unit :=
  bind (require_spmaps t voff) (fun _ => bind may_fail (fun _ => with_leaf t voff (fun l =>
    let l' := unref_allocated l t voff in
    bind (put (fun s => set_leaf s t (leaf_index voff) l')) (fun _ =>
    if 0 <? dbkref_at l' t voff then ret tt
    else bind (put (fun s => stats_add s t (-1) 0)) (fun _ => cache_store t voff (ltype_size t)))))).

(* silofs_addref_vspace, lib/claim.c:570-586 with spac_addref_vspace 555-568 *)
Definition addref (t voff : Z) : M unit :=
  bind (require_spmaps t voff) (fun _ => bind may_fail (fun _ => with_leaf t voff (fun l =>
    put (fun s => set_leaf s t (leaf_index voff) (ref_allocated_at l t voff))))).

(* silofs_sli_clear_unwritten_at, silofs_sli_mark_unwritten_at, lib/spmaps.c:1335-1355, on the
   leaf required for writing: filc_clear_unwritten_at and filc_mark_unwritten_at, lib/file.c *)
Definition clear_unwritten (t voff : Z) : M unit :=
  bind (require_spmaps t voff) (fun _ => with_leaf t voff (fun l =>
    if test_unwritten_at l t voff
    then put (fun s => set_leaf s t (leaf_index voff) (clear_unwritten_at l t voff)) else ret tt)).
Definition mark_unwritten (t voff : Z) : M unit :=
  bind (require_spmaps t voff) (fun _ => with_leaf t voff (fun l =>
    if test_unwritten_at l t voff then ret tt
    else put (fun s => set_leaf s t (leaf_index voff) (set_unwritten_at l t voff)))).

(* silofs_spamaps_drop, lib/spxmap.c:584-595 *)
Definition drop_cache (s : space) : space :=
  mkSpace (sv_ver s) (sv_leaf s) (sv_node s) (fun t => spamap_clear (sv_cache s t))
          (sv_cobjs s) (sv_cbks s) (sv_bobjs s) (sv_bbks s) (sv_cap s).
(* memory of a new process: silofs_spamaps_init, lib/spxmap.c:597-610 *)
Definition new_cache (s : space) : space :=
  mkSpace (sv_ver s) (sv_leaf s) (sv_node s) (fun t => spamap_init t)
          (sv_cobjs s) (sv_cbks s) (sv_bobjs s) (sv_bbks s) (sv_cap s).
(* leaves read again from disk: ustage.c:140 *)
Definition reload_leaves (s : space) : space :=
  mkSpace (sv_ver s) (fun t i => match sv_leaf s t i with Some l => Some (update_nused l) | None => None end) (sv_node s)
          (sv_cache s) (sv_cobjs s) (sv_cbks s) (sv_bobjs s) (sv_bbks s) (sv_cap s).
(* one leaf evicted from memory and read again *)
Definition reload_leaf (t i : Z) (s : space) : space :=
  match sv_leaf s t i with Some l => set_leaf s t i (update_nused l) | None => s end.

(* one round of spac_rescan_free_vspace, lib/claim.c:590-611: staging fails with -ENOENT when
   the leaf is missing *)
Definition rescan_body (t : Z) (st : space * list bool * Z) : (space * list bool * Z) + (space * list bool * out Z) :=
  let '(s, o, voff) := st in
  if voff <? VSPACE_END then
    let '(s, o, r) := bind may_fail (fun _ => with_leaf t voff (fun _ => ret tt)) s o in
    match r with
    | Ok _ =>
      let m := sv_cache s t in
      let s := set_cache s t (mkSpa (sp_lifo m) (sp_ulen m) (sp_ents m) (sp_cap m) voff) in
      let '(s, o, r) := find_free_at t voff s o in
      match r with Ok v => inr (s, o, Ok v) | _ => inl (s, o, spleaf_next voff) end
    | _ => inr (s, o, Fail)
    end
  else inr (s, o, Nospc).
(* silofs_rescan_vspace_of, lib/claim.c:613-626 *)
Definition rescan (t : Z) : M unit := fun s o =>
  match ploop SCAN_ROUNDS (rescan_body t) (s, o, 0) with
  | inr (s, o, Ok v) =>
    match sv_leaf s t (leaf_index v) with
    | Some l => if 0 <? dbkref_at l t v then (s, o, Ok tt) else cache_store t v (ltype_size t) s o
    | None => (s, o, Ok tt)
    end
  | inr (s, o, Nospc) => (s, o, Nospc)
  | inr (s, o, Ub) => (s, o, Ub)
  | _ => (s, o, Fail)
  end.
(* reload_free_vspace, lib/execlib.c:797-814: errors of one kind other than a missing leaf or no
   space end the loop; here a kind may fail and the next is scanned, a superset of behaviours *)
Definition VTYPES : list Z :=
  [LT_INODE; LT_XANODE; LT_SYMVAL; LT_DTNODE; LT_FTNODE; LT_DATA1K; LT_DATA4K; LT_DATABK].
Fixpoint rescan_all (ts : list Z) : M unit := fun s o =>
  match ts with
  | [] => (s, o, Ok tt)
  | t :: r =>
    let '(s, o, x) := rescan t s o in
    match x with Ub => (s, o, Ub) | _ => rescan_all r s o end
  end.

(* a snapshot: sbi_make_clone, lib/fsenv.c:527-539.  The volume gets a new id, the statistics so
   far become the base, the new super-block is counted. *)
Definition fork (s : space) : space :=
  let s' := mkSpace (sv_ver s + 1) (sv_leaf s) (sv_node s) (sv_cache s)
                    (fun _ => 0) (fun _ => 0) (objs s) (bks s) (sv_cap s) in
  stats_add s' LT_SUPER 1 1.

(* silofs_fsenv_format_super, lib/fsenv.c:486-498 *)
Definition formatted (cap : Z) : space :=
  stats_add (mkSpace 0 (fun _ _ => None) (fun _ _ _ => None) (fun t => spamap_init t)
                     (fun _ => 0) (fun _ => 0) (fun _ => 0) (fun _ => 0) cap) LT_SUPER 1 1.

(* what the rest of the file system can do to the space *)
Inductive sop :=
| SClaim (t : Z)
| SShare (t voff : Z)
| SRelease (t voff : Z)
| SWritten (t voff : Z)
| SUnwritten (t voff : Z)
| SDrop
| SReload (t i : Z)
| SReopen (fresh : bool)
| SFork.

Definition sstep (s : space) (op : sop) (o : list bool) : space * out (option Z) :=
  let unit_op (m : M unit) := let '(s, _, r) := m s o in
    (s, match r with Ok _ => Ok None | Nospc => Nospc | Fail => Fail | Ub => Ub end) in
  match op with
  | SClaim t => let '(s, _, r) := claim t s o in
    (s, match r with Ok v => Ok (Some v) | Nospc => Nospc | Fail => Fail | Ub => Ub end)
  | SShare t v => unit_op (addref t v)
  | SRelease t v => unit_op (reclaim t v)
  | SWritten t v => unit_op (clear_unwritten t v)
  | SUnwritten t v => unit_op (mark_unwritten t v)
  | SDrop => (drop_cache s, Ok None)
  | SReload t i => (reload_leaf t i s, Ok None)
  | SReopen fresh =>
    let s := reload_leaves (if fresh then new_cache s else drop_cache s) in
    let '(s, _, r) := rescan_all VTYPES s o in
    (s, match r with Ok _ => Ok None | Nospc => Nospc | Fail => Fail | Ub => Ub end)
  | SFork => (fork s, Ok None)
  end.
