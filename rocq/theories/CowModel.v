(* Copy-on-write and snapshots: how one file-system instance finds its space
   maps and objects, when it copies a map node or re-homes a block before
   changing it, what it writes to the repository, and how a snapshot is made.

   Code: lib/vstage.c (whole file, except the inode wrappers 2586-2690),
   lib/ustage.c, lib/lcache.c:177-430,696-702,845-910 (in-memory nodes by
   address and the map from position to address), lib/spxmap.c:626-961,
   lib/spmaps.c (the clone, bind and resolve functions), lib/super.c:734-852,
   1003-1020, lib/fsenv.c:547-640, lib/namei.c:2317-2413 (clone),
   lib/claim.c:155-560, lib/flush.c:476-540 (the guard on what is written),
   lib/file.c:925-932,1438-1456,2571-2618 (how a data leaf is made writable).

   What is kept of an address.  A logical segment is named by a volume id, a
   vspace, a height and an index; the last three and the position inside the
   segment are functions of the place in the tree (proved in SpmapProps.v), so
   a link to a node or a block is its volume id and its IV.  Volume ids are
   random 128-bit numbers, here a counter: they never repeat.

   Simplifications.  Encryption is a tag: a stored object remembers the IV it
   was written with, and loading it with another IV yields garbage.  A map node
   or a meta-data object that is not stored, or is stored under another IV,
   fails verification; a data object is not verified.  Allocation bits are per
   object (SpaceModel.v has the bit masks); reference counts of shared data
   blocks, statistics and the in-memory free-space map are left out.  A call
   that can fail for lack of memory, file handles or space asks the oracle
   [oF]; three failures the code does not clean up after ask [oB].  Nodes used
   by a running operation are pinned, so nothing is evicted inside one. *)
From Verif Require Import Base AddrModel.
Open Scope Z_scope.

(* ---- finite maps, newest binding first ---- *)

Definition key := list Z.
Definition keyb (a b : key) : bool := if list_eq_dec Z.eq_dec a b then true else false.
Definition amap (A : Type) := list (key * A).
Fixpoint get {A} (m : amap A) (k : key) : option A :=
  match m with
  | [] => None
  | (k', x) :: r => if keyb k' k then Some x else get r k
  end.
Definition del {A} (m : amap A) (k : key) : amap A := filter (fun p => negb (keyb (fst p) k)) m.
Definition set {A} (m : amap A) (k : key) (x : A) : amap A := (k, x) :: del m k.

(* ---- places in the tree ---- *)

(* silofs_vrange_of_spmap (lib/addr/vaddr.c): start of the range of height h around off *)
Definition base (h off : Z) : Z := off / space_span h * space_span h.

(* silofs_uakey_setup_by2, lib/spxmap.c:648-653 *)
Definition ukey (vs h off : Z) : key := [vs; h; base h off].

(* An object: its type, which is also its vspace, and its offset in that space. *)
Definition vad := (Z * Z)%type.
Definition vkey (v : vad) : key := [fst v; snd v].
Definition lkey (v : vad) : key := ukey (fst v) H_SPLEAF (snd v).
Definition slot (v : vad) : Z := base H_VDATA (snd v).
Definition isdatabk (v : vad) : bool := fst v =? LT_DATABK.

(* ---- what is stored and what is in memory ---- *)

(* struct silofs_spmap_node and struct silofs_spmap_leaf: main segment, child or
   block addresses, IVs; in a leaf also the allocated objects.  Slots are named
   by the first offset they cover. *)
Record node := mkNode {
  n_main : option Z; n_kid : Z -> option Z; n_riv : Z -> Z; n_alloc : Z -> bool }.

(* struct silofs_super_block: volume id; per vspace a main segment, a root, an IV *)
Record super := mkSuper {
  sb_lv : Z; sb_main : Z -> option Z; sb_kid : Z -> option Z; sb_riv : Z -> Z }.

(* struct silofs_unode_info, struct silofs_vnode_info *)
Record cu := mkCu { u_node : node; u_riv : Z; u_dirty : bool }.
Record cv := mkCv { v_dat : bytes; v_lv : Z; v_riv : Z; v_dirty : bool }.

(* Random IVs; the bytes read from a hole; the bytes read with a wrong IV. *)
Record env := mkEnv {
  e_rnd : Z -> Z -> Z; e_hole : Z -> bytes; e_garble : Z -> Z -> bytes -> bytes }.

Record st := mkSt {
  ev : env;
  oF : list bool;            (* failures that leave things as they were *)
  oB : list bool;            (* failures that do not *)
  nx : Z;                    (* next fresh number *)
  sU : amap (Z * node);      (* repository: map nodes, by volume id and place *)
  sV : amap (Z * bytes);     (* repository: objects, by volume id and object *)
  sS : amap super;           (* repository: super blocks, by their own id *)
  cU : amap cu;              (* lcache: map nodes, by volume id and place *)
  uam : list (key * Z);      (* uamap: place -> volume id, newest first *)
  cV : amap cv;              (* lcache: objects *)
  sb : super;                (* the bound super block *)
  sbd : bool;                (* ... is dirty *)
  sid : Z;                   (* ... its own id *)
  boot : Z }.                (* the super block named by the boot record *)

Definition with_oF x s := mkSt (ev s) x (oB s) (nx s) (sU s) (sV s) (sS s) (cU s) (uam s) (cV s) (sb s) (sbd s) (sid s) (boot s).
Definition with_oB x s := mkSt (ev s) (oF s) x (nx s) (sU s) (sV s) (sS s) (cU s) (uam s) (cV s) (sb s) (sbd s) (sid s) (boot s).
Definition with_nx x s := mkSt (ev s) (oF s) (oB s) x (sU s) (sV s) (sS s) (cU s) (uam s) (cV s) (sb s) (sbd s) (sid s) (boot s).
Definition with_sU x s := mkSt (ev s) (oF s) (oB s) (nx s) x (sV s) (sS s) (cU s) (uam s) (cV s) (sb s) (sbd s) (sid s) (boot s).
Definition with_sV x s := mkSt (ev s) (oF s) (oB s) (nx s) (sU s) x (sS s) (cU s) (uam s) (cV s) (sb s) (sbd s) (sid s) (boot s).
Definition with_sS x s := mkSt (ev s) (oF s) (oB s) (nx s) (sU s) (sV s) x (cU s) (uam s) (cV s) (sb s) (sbd s) (sid s) (boot s).
Definition with_cU x s := mkSt (ev s) (oF s) (oB s) (nx s) (sU s) (sV s) (sS s) x (uam s) (cV s) (sb s) (sbd s) (sid s) (boot s).
Definition with_uam x s := mkSt (ev s) (oF s) (oB s) (nx s) (sU s) (sV s) (sS s) (cU s) x (cV s) (sb s) (sbd s) (sid s) (boot s).
Definition with_cV x s := mkSt (ev s) (oF s) (oB s) (nx s) (sU s) (sV s) (sS s) (cU s) (uam s) x (sb s) (sbd s) (sid s) (boot s).
Definition with_sb x s := mkSt (ev s) (oF s) (oB s) (nx s) (sU s) (sV s) (sS s) (cU s) (uam s) (cV s) x (sbd s) (sid s) (boot s).
Definition with_sbd x s := mkSt (ev s) (oF s) (oB s) (nx s) (sU s) (sV s) (sS s) (cU s) (uam s) (cV s) (sb s) x (sid s) (boot s).
Definition with_ids x y s := mkSt (ev s) (oF s) (oB s) (nx s) (sU s) (sV s) (sS s) (cU s) (uam s) (cV s) (sb s) (sbd s) x y.

(* ---- results ---- *)

Inductive res (A : Type) := Ok (a : A) | Er | Bad.
Arguments Ok {A} a. Arguments Er {A}. Arguments Bad {A}.
Definition M (A : Type) := st -> res A * st.
Definition ret {A} (a : A) : M A := fun s => (Ok a, s).
Definition err {A} : M A := fun s => (Er, s).
Definition bad {A} : M A := fun s => (Bad, s).   (* a failed assertion *)
Definition bind {A B} (m : M A) (f : A -> M B) : M B := fun s =>
  match m s with
  | (Ok a, s') => f a s'
  | (Er, s') => (Er, s')
  | (Bad, s') => (Bad, s')
  end.
Notation "x <- m ;; f" := (bind m (fun x => f)) (at level 61, m at next level, right associativity).
Notation "m ;;; f" := (bind m (fun _ => f)) (at level 61, right associativity).
Definition mod_st (f : st -> st) : M unit := fun s => (Ok tt, f s).
Definition gets {A} (f : st -> A) : M A := fun s => (Ok (f s), s).

(* A call below may fail: the caller returns its error. *)
Definition may_fail : M unit := fun s =>
  match oF s with
  | [] => (Ok tt, s)
  | b :: r => (if b then Er else Ok tt, with_oF r s)
  end.
Definition flipB : M bool := fun s =>
  match oB s with
  | [] => (Ok false, s)
  | b :: r => (Ok b, with_oB r s)
  end.

Definition lv (s : st) : Z := sb_lv (sb s).

(* Stage modes: SILOFS_STG_CUR and SILOFS_STG_COW *)
Inductive mode := CUR | COW.
Definition is_cow (m : mode) : bool := match m with CUR => false | COW => true end.

(* vstgc_inspect_laddr, sbi_inspect_laddr (lib/vstage.c:321-332,546-556);
   silofs_sbi_ismutable_laddr (lib/super.c:839-852, the test itself 848-852) *)
Definition acc (m : mode) (l : Z) (s : st) : bool := negb (is_cow m) || (l =? lv s).

(* ---- the map from place to address: lib/spxmap.c:626-961 ---- *)

Fixpoint uam_find (u : list (key * Z)) (k : key) : option Z :=
  match u with
  | [] => None
  | (k', l) :: r => if keyb k' k then Some l else uam_find r k
  end.
Definition uam_remove (u : list (key * Z)) (k : key) : list (key * Z) :=
  filter (fun p => negb (keyb (fst p) k)) u.

(* silofs_uamap_insert, uamap_refresh (lib/spxmap.c:928-947): its error is ignored
   by lcache_track_uaddr (lib/lcache.c:276-280) *)
Definition uam_refresh (u : list (key * Z)) : list (key * Z) :=
  if 8191 <? 2 * zlen u then removelast u else u.
Definition track (k : key) (l : Z) : M unit :=
  b <- flipB ;; if b then ret tt else mod_st (fun s => with_uam ((k, l) :: uam_refresh (uam s)) s).

(* lcache_find_uni_by (lib/lcache.c:403-415) *)
Definition fcached (s : st) (k : key) : option Z :=
  match uam_find (uam s) k with
  | Some l => match get (cU s) (l :: k) with Some _ => Some l | None => None end
  | None => None
  end.

(* ---- map nodes by address: lib/ustage.c ---- *)

Definition set_cu (l : Z) (k : key) (c : cu) (s : st) : st := with_cU (set (cU s) (l :: k) c) s.
Definition upd_node (l : Z) (k : key) (f : node -> node) : M unit := mod_st (fun s =>
  match get (cU s) (l :: k) with
  | Some c => set_cu l k (mkCu (f (u_node c)) (u_riv c) true) s
  | None => s
  end).

(* lcache_track_uaddr_of (lib/lcache.c:298-308): on a hit by address *)
Definition track_hit (k : key) (l : Z) : M unit :=
  u <- gets uam ;;
  match uam_find u k with Some _ => ret tt | None => track k l end.

(* forget_cached_uni (lib/ustage.c:189-193), lcache_forget_uni (lib/lcache.c:390-395) *)
Definition forget_uni (k : key) : M unit := mod_st (fun s => with_uam (uam_remove (uam s) k) s).

(* stage_spnode_at, stage_spleaf_at (lib/ustage.c:496-534,617-655) *)
Definition stage_uni (l : Z) (k : key) (r : Z) : M unit :=
  c <- gets (fun s => get (cU s) (l :: k)) ;;
  match c with
  | Some _ => track_hit k l
  | None =>
    may_fail ;;;                                    (* create_cached_uni *)
    track k l ;;;
    x <- gets (fun s => get (sU s) (l :: k)) ;;
    let good := match x with Some (r', n) => if r' =? r then Some n else None | None => None end in
    (fun s => match may_fail s, good with            (* require_lseg, load, decrypt, verify *)
              | (Ok _, s1), Some n => (Ok tt, set_cu l k (mkCu n r false) s1)
              | (_, s1), _ => match forget_uni k s1 with (_, s2) => (Er, s2) end
              end)
  end.

Definition blank_node : node := mkNode None (fun _ => None) (fun _ => 0) (fun _ => false).

(* spawn_spnode_at, spawn_spleaf_at (lib/ustage.c:448-474,569-595) *)
Definition spawn_uni (l : Z) (k : key) (r : Z) : M unit :=
  c <- gets (fun s => get (cU s) (l :: k)) ;;
  match c with
  | Some _ => track_hit k l
  | None =>
    may_fail ;;;
    track k l ;;;
    (fun s => match may_fail s with                  (* require_lseg *)
              | (Ok _, s1) => (Ok tt, set_cu l k (mkCu blank_node r true) s1)
              | (_, s1) => match forget_uni k s1 with (_, s2) => (Er, s2) end
              end)
  end.

(* silofs_sni_setup_spawned (lib/spmaps.c:1527-1539), silofs_sli_setup_spawned (1128-1140) *)
Definition setup_spawned (l : Z) (k : key) : M unit :=
  c <- gets nx ;;
  rnd <- gets (fun s => e_rnd (ev s)) ;;
  mod_st (fun s => with_nx (c + 1) s) ;;;
  upd_node l k (fun _ => mkNode None (fun _ => None) (rnd c) (fun _ => false)).

(* ---- the parent of a node: the super block or another node ---- *)

Definition par := option (Z * key).
Definition p_main (s : st) (p : par) (vs : Z) : option Z :=
  match p with
  | None => sb_main (sb s) vs
  | Some (l, k) => match get (cU s) (l :: k) with Some c => n_main (u_node c) | None => None end
  end.
Definition p_kid (s : st) (p : par) (vs b : Z) : option Z :=
  match p with
  | None => sb_kid (sb s) vs
  | Some (l, k) => match get (cU s) (l :: k) with Some c => n_kid (u_node c) b | None => None end
  end.
Definition p_riv (s : st) (p : par) (vs b : Z) : Z :=
  match p with
  | None => sb_riv (sb s) vs
  | Some (l, k) => match get (cU s) (l :: k) with Some c => n_riv (u_node c) b | None => 0 end
  end.

Definition fsetZ {A} (f : Z -> A) (i : Z) (x : A) : Z -> A := fun j => if j =? i then x else f j.

(* silofs_sbi_bind_main_lseg (lib/super.c:734-740), silofs_sni_bind_main_lseg (lib/spmaps.c:1652-1657) *)
Definition p_set_main (p : par) (vs l' : Z) : M unit :=
  match p with
  | None => mod_st (fun s => with_sbd true (with_sb
      (mkSuper (sb_lv (sb s)) (fsetZ (sb_main (sb s)) vs (Some l')) (sb_kid (sb s)) (sb_riv (sb s))) s))
  | Some (l, k) => upd_node l k (fun n => mkNode (Some l') (n_kid n) (n_riv n) (n_alloc n))
  end.

(* silofs_sbi_bind_child (lib/super.c:831-837), silofs_sni_bind_child (lib/spmaps.c:1556-1568) *)
Definition p_bind (p : par) (vs b l' r' : Z) : M unit :=
  match p with
  | None => mod_st (fun s => with_sbd true (with_sb
      (mkSuper (sb_lv (sb s)) (sb_main (sb s)) (fsetZ (sb_kid (sb s)) vs (Some l')) (fsetZ (sb_riv (sb s)) vs r')) s))
  | Some (l, k) => upd_node l k (fun n =>
      mkNode (n_main n) (fsetZ (n_kid n) b (Some l')) (fsetZ (n_riv n) b r') (n_alloc n))
  end.

(* vstgc_require_super_main_lseg, vstgc_require_spnode_main_lseg (lib/vstage.c:460-542) *)
Definition require_main (p : par) (vs : Z) : M Z :=
  m <- gets (fun s => p_main s p vs) ;;
  may_fail ;;;
  match m with
  | Some l => ret l
  | None => l <- gets lv ;; p_set_main p vs l ;;; ret l
  end.

(* vstgc_require_spleaf_main_lseg (lib/vstage.c:1579-1611) with
   silofs_sli_bind_main_lseg (lib/spmaps.c:1370-1376): binds every block *)
Definition require_leaf_main (l : Z) (k : key) : M unit :=
  m <- gets (fun s => p_main s (Some (l, k)) 0) ;;
  match m with
  | Some _ => may_fail
  | None =>
    b <- flipB ;;
    if b then err else
    l' <- gets lv ;;
    upd_node l k (fun n => mkNode (Some l') (fun _ => Some l') (n_riv n) (n_alloc n))
  end.

(* vstgc_spawn_spnode4 .. vstgc_spawn_spnode1 (lib/vstage.c:842-853, 1396-1407 and alike),
   vstgc_spawn_spleaf (1613-1628) *)
Definition spawn_at (p : par) (vs h b : Z) : M Z :=
  let k := [vs; h; b] in
  l <- require_main p vs ;;
  r <- gets (fun s => p_riv s p vs b) ;;
  spawn_uni l k r ;;;
  setup_spawned l k ;;;
  (if h =? H_SPLEAF then require_leaf_main l k else ret tt) ;;;
  ret l.

(* sbi_bind_child_spnode, sni_bind_child_spnode, sni_bind_child_spleaf (lib/vstage.c:132-153) *)
Definition bind_at (p : par) (vs h b l : Z) : M unit :=
  r <- gets (fun s => match get (cU s) (l :: [vs; h; b]) with Some c => u_riv c | None => 0 end) ;;
  p_bind p vs b l r.

(* vstgc_do_clone_spnode4 .. vstgc_do_clone_spleaf (lib/vstage.c:855-867,1043-1055,1226-1238,1409-1421,1630-1642);
   silofs_sni_clone_from (lib/spmaps.c:1695-1702), silofs_sli_clone_from (1378-1385) *)
Definition clone_at (p : par) (vs h b l : Z) : M Z :=
  let k := [vs; h; b] in
  l' <- spawn_at p vs h b ;;
  o <- gets (fun s => get (cU s) (l :: k)) ;;
  (match o with
   | Some c => upd_node l' k (fun n => mkNode (n_main n) (n_kid (u_node c)) (n_riv (u_node c)) (n_alloc (u_node c)))
   | None => ret tt
   end) ;;;
  bind_at p vs h b l' ;;;
  ret l'.

(* vstgc_fetch_cached_spnode, vstgc_do_stage_spnode4 .. vstgc_do_stage_spleaf
   (lib/vstage.c:629-646,888-915,1076-1102,1259-1285,1442-1468,1657-1683) *)
Definition stage_level (m : mode) (p : par) (vs h b : Z) : M Z :=
  let k := [vs; h; b] in
  s0 <- gets (fun s => s) ;;
  let direct :=
    kd <- gets (fun s => p_kid s p vs b) ;;
    match kd with
    | None => err
    | Some l =>
      r <- gets (fun s => p_riv s p vs b) ;;
      stage_uni l k r ;;;
      (if acc m l s0 then ret l else clone_at p vs h b l)
    end in
  match fcached s0 k with
  | Some l => if acc m l s0 then ret l else direct
  | None => direct
  end.

(* vstgc_require_spnode4_of .. vstgc_require_spleaf (lib/vstage.c:978-997,1527-1546,1766-1774) *)
Definition require_level (p : par) (vs h b : Z) : M Z :=
  kd <- gets (fun s => p_kid s p vs b) ;;
  match kd with
  | Some _ => stage_level COW p vs h b
  | None =>
    s0 <- gets (fun s => s) ;;
    let fresh := l <- spawn_at p vs h b ;; bind_at p vs h b l ;;; ret l in
    match fcached s0 [vs; h; b] with
    | Some l => if (negb (h =? H_SPLEAF)) && acc COW l s0 then ret l else fresh
    | None => fresh
    end
  end.

(* vstgc_stage_spmaps_of (lib/vstage.c:1826-1839), silofs_require_spmaps_of (1934-1959):
   the levels from the super block down to the leaf *)
Definition levels : list Z := [H_SPNODE4; H_SPNODE3; H_SPNODE2; H_SPNODE1; H_SPLEAF].
Fixpoint walk (lvl : par -> Z -> Z -> M Z) (hs : list Z) (p : par) (vs off : Z) : M par :=
  match hs with
  | [] => ret p
  | h :: r => l <- lvl p h (base h off) ;; walk lvl r (Some (l, ukey vs h off)) vs off
  end.
Definition leaf_of (p : par) : M Z := match p with Some (l, _) => ret l | None => err end.
Definition stage_spmaps (m : mode) (v : vad) : M Z :=
  p <- walk (fun p h b => stage_level m p (fst v) h b) levels None (fst v) (snd v) ;; leaf_of p.
Definition require_spmaps (v : vad) : M Z :=
  p <- walk (fun p h b => require_level p (fst v) h b) levels None (fst v) (snd v) ;; leaf_of p.

(* vstgc_stage_spleaf_for_resolve (lib/vstage.c:1861-1870) *)
Definition resolve_leaf (m : mode) (v : vad) : M Z :=
  s0 <- gets (fun s => s) ;;
  match fcached s0 (lkey v) with
  | Some l => if acc m l s0 then ret l else stage_spmaps m v
  | None => stage_spmaps m v
  end.

(* vstgc_resolve_llink_of (lib/vstage.c:1841-1859), silofs_sli_resolve_child (lib/spmaps.c:1394-1405) *)
Definition llink_of (leaf : Z) (v : vad) : M (Z * Z) :=
  c <- gets (fun s => get (cU s) (leaf :: lkey v)) ;;
  match c with
  | Some c => match n_kid (u_node c) (slot v) with
              | Some l => ret (l, n_riv (u_node c) (slot v))
              | None => err
              end
  | None => err
  end.

(* silofs_sli_has_allocated_space (lib/spmaps.c:1323-1327) *)
Definition allocated (s : st) (leaf : Z) (v : vad) : bool :=
  match get (cU s) (leaf :: lkey v) with Some c => n_alloc (u_node c) (snd v) | None => false end.

(* ---- objects ---- *)

Definition set_cv (v : vad) (c : cv) : M unit := mod_st (fun s => with_cV (set (cV s) (vkey v) c) s).
Definition get_cv (v : vad) : M (option cv) := gets (fun s => get (cV s) (vkey v)).

(* require_stable_at (lib/vstage.c:1974-1990) *)
Definition require_stable (v : vad) : M unit :=
  l <- stage_spmaps CUR v ;;
  a <- gets (fun s => allocated s l v) ;;
  if a then ret tt else err.

(* vstgc_load_view_at, decrypt and verify (lib/vstage.c:296-317,2021-2039): data is
   not verified *)
Definition load (l r : Z) (v : vad) : M bytes :=
  x <- gets (fun s => get (sV s) (l :: vkey v)) ;;
  e <- gets ev ;;
  match x with
  | Some (r', d) => if r' =? r then ret d
                    else if ltype_isdata (fst v) then ret (e_garble e r' r d) else err
  | None => if ltype_isdata (fst v) then ret (e_hole e r) else err
  end.

(* silofs_stage_vnode with SILOFS_STG_CUR (lib/vstage.c:2355-2396,2498-2560): nothing
   is copied, so no recursion *)
Definition stage_cur (v : vad) : M unit :=
  c <- get_cv v ;;
  match c with
  | Some _ => ret tt
  | None =>
    require_stable v ;;;
    leaf <- resolve_leaf CUR v ;;
    lr <- llink_of leaf v ;;
    may_fail ;;;
    d <- load (fst lr) (snd lr) v ;;
    set_cv v (mkCv d (fst lr) (snd lr) false)
  end.

(* bkr_make_vaddrs (lib/spmaps.c:632-651): the allocated objects of one block *)
Definition objs_at (vs b : Z) : list vad :=
  map (fun i => (vs, b + Z.of_nat i * ltype_size vs)) (seq 0 (Z.to_nat (LBK_SIZE / ltype_size vs))).
Definition block_objs (s : st) (leaf : Z) (v : vad) : list vad :=
  filter (fun w => allocated s leaf w) (objs_at (fst v) (slot v)).

Definition vad_eqb (v w : vad) : bool := (fst v =? fst w) && (snd v =? snd w).

(* vstgc_pre_clone_stage_at (lib/vstage.c:2200-2222) *)
Definition pre_skip (raw : bool) (v w : vad) : bool :=
  (snd w =? 0) || (vad_eqb v w && (raw || isdatabk w)).

(* silofs_lcache_reditify_vni (lib/lcache.c:696-702), vstgc_post_clone_lbk (lib/vstage.c:2265-2277) *)
Fixpoint redirty (ws : list vad) : M unit :=
  match ws with
  | [] => ret tt
  | w :: r => c <- get_cv w ;;
              (match c with Some c => set_cv w (mkCv (v_dat c) (v_lv c) (v_riv c) true) | None => ret tt end) ;;;
              redirty r
  end.

(* vstgc_do_pre_clone_lbk (lib/vstage.c:2224-2246): on an error the objects staged
   so far are still marked dirty by vstgc_post_clone_lbk *)
Fixpoint pre_clone (ws : list vad) (raw : bool) (v : vad) (acc : list vad) : M (list vad) :=
  match ws with
  | [] => ret acc
  | w :: r =>
    if pre_skip raw v w then pre_clone r raw v acc
    else fun s => match stage_cur w s with
                  | (Ok _, s1) => pre_clone r raw v (w :: acc) s1
                  | (_, s1) => match redirty acc s1 with (_, s2) => (Er, s2) end
                  end
  end.

(* vstgc_clone_lbk_at (lib/vstage.c:2279-2291), vstgc_clone_rebind_lbk (2138-2154),
   silofs_sli_resolve_main_lbk and silofs_sli_bind_child (lib/spmaps.c:1387-1392,1407-1413) *)
Definition clone_lbk (raw : bool) (v : vad) (leaf : Z) : M unit :=
  ws <- gets (fun s => block_objs s leaf v) ;;
  done <- pre_clone ws raw v [] ;;
  (fun s =>
     match (require_leaf_main leaf (lkey v) ;;; may_fail) s with
     | (Ok _, s1) =>
         (upd_node leaf (lkey v) (fun n => mkNode (n_main n) (fsetZ (n_kid n) (slot v) (n_main n))
            (n_riv n) (n_alloc n)) ;;; redirty done) s1
     | (_, s1) => match redirty done s1 with (_, s2) => (Er, s2) end
     end).

(* vstgc_resolve_inspect_llink (lib/vstage.c:2302-2333), silofs_resolve_llink_of (2335-2344) *)
Definition resolve_inspect (m : mode) (raw : bool) (v : vad) : M (Z * Z) :=
  leaf <- resolve_leaf m v ;;
  lr <- llink_of leaf v ;;
  s0 <- gets (fun s => s) ;;
  if acc m (fst lr) s0 then ret lr
  else may_fail ;;; clone_lbk raw v leaf ;;; llink_of leaf v.

Definition upd_llink (v : vad) (lr : Z * Z) : M unit :=
  c <- get_cv v ;;
  match c with
  | Some c => set_cv v (mkCv (v_dat c) (fst lr) (snd lr) (v_dirty c))
  | None => ret tt
  end.

(* do_resolve_stage_vnode (lib/vstage.c:2498-2514), require_updated_cached_vni
   (2477-2496), vstgc_stage_vnode_at (2355-2396) *)
Definition stage_vnode (m : mode) (raw : bool) (v : vad) : M unit :=
  c <- get_cv v ;;
  s0 <- gets (fun s => s) ;;
  match c with
  | Some c =>
    if acc m (v_lv c) s0 then ret tt
    else lr <- resolve_inspect m raw v ;; upd_llink v lr
  | None =>
    require_stable v ;;;
    lr <- resolve_inspect m raw v ;;
    may_fail ;;;
    c' <- get_cv v ;;
    match c' with
    | Some _ => upd_llink v lr
    | None =>
      d <- (if raw then ret [] else load (fst lr) (snd lr) v) ;;
      set_cv v (mkCv d (fst lr) (snd lr) false)
    end
  end.

Definition modify (v : vad) (f : bytes -> bytes) : M unit :=
  c <- get_cv v ;;
  match c with
  | Some c => set_cv v (mkCv (f (v_dat c)) (v_lv c) (v_riv c) true)
  | None => ret tt
  end.

(* ---- operations ---- *)

(* Read an object. *)
Definition op_read (v : vad) : M bytes :=
  stage_vnode CUR false v ;;;
  c <- get_cv v ;;
  match c with Some c => ret (v_dat c) | None => err end.

(* Change an object in place.  For a data leaf, filc_require_mut_by comes first
   (lib/file.c:925-932,2570-2594), then filc_stage_fileaf (1438-1458). *)
Definition op_write (rm : bool) (v : vad) (f : bytes -> bytes) : M unit :=
  (if rm then resolve_inspect COW false v ;;; may_fail else ret tt) ;;;
  stage_vnode COW false v ;;;
  modify v f.

(* silofs_claim_vspace (lib/claim.c:373-414) with the offset found by the search
   (SpaceProps.v); silofs_sli_mark_allocated_space (lib/spmaps.c:1254-1268) *)
Definition op_claim (v : vad) : M unit :=
  leaf <- require_spmaps v ;;
  a <- gets (fun s => allocated s leaf v) ;;
  if a then err else
  leaf' <- resolve_leaf CUR v ;;
  llink_of leaf' v ;;;
  upd_node leaf (lkey v) (fun n => mkNode (n_main n) (n_kid n) (n_riv n) (fsetZ (n_alloc n) (snd v) true)).

(* do_spawn_vnode (lib/vstage.c:2743-2762): the new object is filled by the caller *)
Definition op_spawn (v : vad) (d : bytes) : M unit :=
  op_claim v ;;;
  stage_vnode COW true v ;;;
  modify v (fun _ => d).

(* silofs_repo_punch_lseg of the leaf's main segment (lib/claim.c:469-494) *)
Definition punch (l : Z) (v : vad) (s : st) : st :=
  with_sV (filter (fun p => match fst p with
                            | [l'; vs; off] => negb ((l' =? l) && (vs =? fst v) && (base H_SPLEAF off =? base H_SPLEAF (snd v)))
                            | _ => true
                            end) (sV s)) s.

(* silofs_reclaim_vspace (lib/claim.c:496-553), silofs_sli_unref_allocated_space
   (lib/spmaps.c:1281-1298); [leaf_used] stands for sl_nused_bytes > 0 *)
Definition blocks_of (off : Z) : list Z :=
  map (fun i => base H_SPLEAF off + Z.of_nat i * LBK_SIZE) (seq 0 256).
Definition block_used (n : node) (vs b : Z) : bool := existsb (fun w => n_alloc n (snd w)) (objs_at vs b).
Definition leaf_used (n : node) (v : vad) : bool := existsb (block_used n (fst v)) (blocks_of (snd v)).
Definition op_reclaim (v : vad) : M unit :=
  leaf <- require_spmaps v ;;
  leaf' <- resolve_leaf CUR v ;;
  llink_of leaf' v ;;;
  c <- gets nx ;;
  rnd <- gets (fun s => e_rnd (ev s) c 0) ;;
  mod_st (fun s => with_nx (c + 1) s) ;;;
  upd_node leaf (lkey v) (fun n =>
    let al := fsetZ (n_alloc n) (snd v) false in
    let n1 := mkNode (n_main n) (n_kid n) (n_riv n) al in
    if block_used n1 (fst v) (slot v) then n1
    else mkNode (n_main n) (n_kid n) (fsetZ (n_riv n) (slot v) rnd) al) ;;;
  x <- gets (fun s => get (cU s) (leaf :: lkey v)) ;;
  s0 <- gets (fun s => s) ;;
  match x with
  | Some c => if leaf_used (u_node c) v then ret tt
              else match n_main (u_node c) with
                   | Some l => if l =? lv s0 then mod_st (punch l v) else ret tt
                   | None => ret tt
                   end
  | None => ret tt
  end.

(* silofs_remove_vnode, silofs_remove_vnode_at, reclaim_vspace_at (lib/vstage.c:2858-2913) *)
Definition op_remove (v : vad) : M unit :=
  resolve_inspect COW false v ;;;
  op_reclaim v ;;;
  mod_st (fun s => with_cV (del (cV s) (vkey v)) s).

(* flusher_pre_resolve_llink_of, flusher_resolve_llink_of, flusher_require_mutable_llink
   (lib/flush.c:476-540): the guard is an assertion *)
Definition op_flush_v (v : vad) : M unit :=
  c <- get_cv v ;;
  match c with
  | Some c =>
    if v_dirty c then
      s0 <- gets (fun s => s) ;;
      (if v_lv c =? lv s0 then ret tt else lr <- resolve_inspect CUR false v ;; upd_llink v lr) ;;;
      c' <- get_cv v ;;
      match c' with
      | Some c' =>
        if v_lv c' =? lv s0 then
          may_fail ;;;
          mod_st (fun s => with_sV (set (sV s) (v_lv c' :: vkey v) (v_riv c', v_dat c')) s) ;;;
          set_cv v (mkCv (v_dat c') (v_lv c') (v_riv c') false)
        else bad
      | None => err
      end
    else ret tt
  | None => ret tt
  end.
Definition op_flush_u (lk : key) : M unit :=
  c <- gets (fun s => get (cU s) lk) ;;
  match c with
  | Some c =>
    if u_dirty c then
      l <- gets lv ;;
      if (match lk with l' :: _ => l' =? l | [] => false end) then
        may_fail ;;;
        mod_st (fun s => with_cU (set (cU s) lk (mkCu (u_node c) (u_riv c) false))
                          (with_sU (set (sU s) lk (u_riv c, u_node c)) s))
      else bad
    else ret tt
  | None => ret tt
  end.
Definition op_flush_sb : M unit :=
  may_fail ;;; mod_st (fun s => with_sbd false (with_sS (set (sS s) [sid s] (sb s)) s)).

(* lcache_evict_or_relru_vni/uni (lib/lcache.c:215-228,549-562): only what is clean;
   silofs_uamap_drop_lru (lib/spxmap.c:958-961) *)
Definition op_evict_v (v : vad) : M unit := mod_st (fun s =>
  match get (cV s) (vkey v) with
  | Some c => if v_dirty c then s else with_cV (del (cV s) (vkey v)) s
  | None => s
  end).
Definition op_evict_u (lk : key) : M unit := mod_st (fun s =>
  match get (cU s) lk with
  | Some c => if u_dirty c then s else with_cU (del (cU s) lk) s
  | None => s
  end).
Definition op_drop_lru : M unit := mod_st (fun s => with_uam (removelast (uam s)) s).

(* silofs_flush_dirty_now (lib/namei.c:2337-2351): everything dirty *)
Fixpoint flush_vs (ks : list key) : M unit :=
  match ks with
  | [] => ret tt
  | k :: r => (match k with [vs; off] => op_flush_v (vs, off) | _ => ret tt end) ;;; flush_vs r
  end.
Fixpoint flush_us (ks : list key) : M unit :=
  match ks with
  | [] => ret tt
  | k :: r => op_flush_u k ;;; flush_us r
  end.
Definition all_clean (s : st) : bool :=
  forallb (fun p => match get (cU s) (fst p) with Some c => negb (u_dirty c) | None => true end) (cU s) &&
  forallb (fun p => match get (cV s) (fst p) with Some c => negb (v_dirty c) | None => true end) (cV s).
Definition op_flush : M unit :=
  vs <- gets (fun s => map fst (cV s)) ;;
  flush_vs vs ;;;
  us <- gets (fun s => map fst (cU s)) ;;
  flush_us us ;;;
  op_flush_sb ;;;
  c <- gets all_clean ;;
  if c then ret tt else err.

(* silofs_sbi_clone_from (lib/super.c:1003-1018) *)
Definition sb_clone (s : super) (l : Z) : super := mkSuper l (fun _ => None) (sb_kid s) (sb_riv s).

(* fsenv_clone_rebind_super (lib/fsenv.c:582-598) *)
Definition clone_rebind (cur : super) : M Z :=
  may_fail ;;;
  c <- gets nx ;;
  mod_st (fun s => with_ids c (boot s) (with_sbd true (with_sb (sb_clone cur (c + 1)) (with_nx (c + 2) s)))) ;;;
  ret c.

(* do_clone (lib/namei.c:2354-2381), silofs_fsenv_forkfs (lib/fsenv.c:619-643):
   returns the id of the snapshot's super block *)
Definition op_fork : M Z :=
  op_flush ;;;
  mod_st (with_uam []) ;;;
  cur <- gets sb ;;
  alt <- clone_rebind cur ;;
  altsb <- gets sb ;;
  mod_st (with_uam []) ;;;
  b <- flipB ;;                                    (* any failure from here on *)
  if b then err else
  c <- gets nx ;;
  mod_st (fun s => with_ids c (boot s) (with_sbd true (with_sb (sb_clone cur (c + 1)) (with_nx (c + 2) s)))) ;;;
  mod_st (fun s => with_sbd false (with_sS (set (set (sS s) [alt] altsb) [c] (sb s)) s)) ;;;
  mod_st (fun s => with_ids c c s) ;;;
  ret alt.

(* Unmount and mount again: everything is written, memory is lost, the super
   block named by the boot record is read (silofs_fsenv_reload_super,
   lib/fsenv.c:500-511). *)
Definition op_remount : M unit :=
  op_flush ;;;
  x <- gets (fun s => get (sS s) [boot s]) ;;
  match x with
  | Some b => mod_st (fun s => with_ids (boot s) (boot s) (with_sbd false (with_sb b
                (with_cV [] (with_uam [] (with_cU [] s))))))
  | None => err
  end.

(* ---- several file systems over one repository ---- *)

(* What one mounted instance keeps in memory. *)
Record inst := mkInst {
  i_cU : amap cu; i_uam : list (key * Z); i_cV : amap cv; i_sb : super; i_sbd : bool; i_sid : Z; i_boot : Z }.

Record sys := mkSys {
  y_ev : env; y_nx : Z; y_sU : amap (Z * node); y_sV : amap (Z * bytes); y_sS : amap super;
  y_inst : list inst }.

Definition enter (y : sys) (i : inst) (f g : list bool) : st :=
  mkSt (y_ev y) f g (y_nx y) (y_sU y) (y_sV y) (y_sS y) (i_cU i) (i_uam i) (i_cV i) (i_sb i) (i_sbd i) (i_sid i) (i_boot i).
Definition inst_of (s : st) : inst := mkInst (cU s) (uam s) (cV s) (sb s) (sbd s) (sid s) (boot s).
Definition leave (y : sys) (j : nat) (s : st) : sys :=
  mkSys (ev s) (nx s) (sU s) (sV s) (sS s) (firstn j (y_inst y) ++ inst_of s :: skipn (S j) (y_inst y)).

Inductive op :=
| Read (v : vad)
| Write (rm : bool) (v : vad) (f : bytes -> bytes)     (* part of an object *)
| Over (rm : bool) (v : vad) (d : bytes)               (* the whole object *)
| Claim (v : vad) | Spawn (v : vad) (d : bytes) | Remove (v : vad)
| FlushV (v : vad) | FlushU (lk : key) | FlushSb | EvictV (v : vad) | EvictU (lk : key) | DropLru
| Remount | Fork.

Inductive answer := ABytes (d : bytes) | ANone | ASnap (a : Z).
Definition run_op (o : op) : M answer :=
  match o with
  | Read v => d <- op_read v ;; ret (ABytes d)
  | Write rm v f => op_write rm v f ;;; ret ANone
  | Over rm v d => op_write rm v (fun _ => d) ;;; ret ANone
  | Claim v => op_claim v ;;; ret ANone
  | Spawn v d => op_spawn v d ;;; ret ANone
  | Remove v => op_remove v ;;; ret ANone
  | FlushV v => op_flush_v v ;;; ret ANone
  | FlushU k => op_flush_u k ;;; ret ANone
  | FlushSb => op_flush_sb ;;; ret ANone
  | EvictV v => op_evict_v v ;;; ret ANone
  | EvictU k => op_evict_u k ;;; ret ANone
  | DropLru => op_drop_lru ;;; ret ANone
  | Remount => op_remount ;;; ret ANone
  | Fork => a <- op_fork ;; ret (ASnap a)
  end.

(* The snapshot becomes one more instance, not yet mounted: nothing in memory. *)
Definition cold_inst (b : super) (a : Z) : inst := mkInst [] [] [] b false a a.

(* Instance j runs one operation. *)
Definition sys_step (y : sys) (j : nat) (o : op) (f g : list bool) : option (res answer * sys) :=
  match nth_error (y_inst y) j with
  | None => None
  | Some i =>
    let (r, s) := run_op o (enter y i f g) in
    let y1 := leave y j s in
    Some (r, match r with
             | Ok (ASnap a) =>
               match get (y_sS y1) [a] with
               | Some b => mkSys (y_ev y1) (y_nx y1) (y_sU y1) (y_sV y1) (y_sS y1) (y_inst y1 ++ [cold_inst b a])
               | None => y1
               end
             | _ => y1
             end)
  end.

(* A freshly formatted file system: silofs_fsenv_format_super (lib/fsenv.c:486-498) *)
Definition sb_new (l : Z) (rv : Z -> Z) : super := mkSuper l (fun _ => None) (fun _ => None) rv.
Definition sys_init (e : env) : sys :=
  mkSys e 2 [] [] [([0], sb_new 1 (e_rnd e 0))] [mkInst [] [] [] (sb_new 1 (e_rnd e 0)) false 0 0].
