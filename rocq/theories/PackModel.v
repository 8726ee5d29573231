(* Archiving a file-system into the pack store of its repository and restoring it
   from there: lib/pack.c, over lib/inspect.c and WalkModel.

   Simplifications:
   - pack objects are keyed by content address (the file name is made of type,
     size and digest: lib/addr/caddr.c:61-80, lib/repo.c:3405-3414);
   - a failed allocation is one of the points that may fail;
   - the pointers to already departed nodes that lib/walk.c keeps after a passed
     over -SILOFS_ENOENT are not modelled. *)
From Verif Require Import Base AddrModel WalkModel.

(* ---- pack objects ---- *)
Definition upd_pack (r : repo) (c : caddr) (v : bytes) : repo :=
  mkRepo (r_segs r) (fun x => if caddr_eqb x c then Some v else r_packs r x) (r_blobs r) (r_refs r).

(* bytes b over the contents e of a file, from its start: pwrite without O_TRUNC *)
Definition overwrite (b e : bytes) : bytes := b ++ skipn (length b) e.
Definition contents (o : option bytes) : bytes := match o with Some e => e | None => [] end.

(* repo_save_pack_of, do_save_obj: lib/repo.c:3450-3468, 444-476 *)
Definition save_pack (c : caddr) (b : bytes) : M unit :=
  may_fail EIo ;;; fun s =>
  let old := contents (r_packs (s_repo s) c) in
  match next_fate s with
  | (FGood, s') => (Ok tt, mkSt (upd_pack (s_repo s') c (overwrite b old)) (s_fates s') (s_descs s'))
  | (FBad n, s') =>
      (Err EIo, mkSt (upd_pack (s_repo s') c (overwrite (firstn n b) old)) (s_fates s') (s_descs s'))
  end.

(* repo_load_pack_of, do_load_obj: lib/repo.c:3483-3502, 479-496: the first n bytes;
   an object that is absent or shorter is an error *)
Definition load_pack (c : caddr) (n : Z) : M bytes :=
  may_fail EIo ;;;
  r <- get_repo ;;
  match r_packs r c with
  | None => fail EIo
  | Some e => if Z.of_nat (length e) <? n then fail EIo else ret (firstn (Z.to_nat n) e)
  end.

(* silofs_calc_caddr_of: lib/addr/caddr.c:218-228 *)
Definition caddr_of (E : env) (b : bytes) (t : Z) : caddr :=
  mkCaddr (e_hash E b) (u32 (Z.of_nat (length b))) t.

(* pac_send_pack: lib/pack.c:690-703: an object of the right size is left as it is *)
Definition send_pack (c : caddr) (b : bytes) : M unit :=
  may_fail EIo ;;;
  r <- get_repo ;;
  match r_packs r c with
  | None => save_pack c b
  | Some e => if Nat.eqb (length e) (length b) then ret tt else save_pack c b
  end.

(* ---- boot records ---- *)
Definition upd_blob (r : repo) (h : bytes) (v : bytes) : repo :=
  mkRepo (r_segs r) (r_packs r) (fun x => if bytes_eqb x h then Some v else r_blobs r x) (r_refs r).
Definition upd_ref (r : repo) (c : caddr) : repo :=
  mkRepo (r_segs r) (r_packs r) (r_blobs r) (fun x => caddr_eqb x c || r_refs r x).

(* silofs_load_bootrec: lib/boot.c:707-742 *)
Definition load_bootrec (E : env) (c : caddr) : M bytes :=
  may_fail EIo ;;;
  r <- get_repo ;;
  if negb (r_refs r c) then fail ENoref
  else may_fail EIo ;;;
  match r_blobs r (ca_hash c) with
  | None => fail EBadboot
  | Some e =>
    if Z.of_nat (length e) <? BOOTREC_SIZE then fail EIo
    else let b := firstn (Z.to_nat BOOTREC_SIZE) e in
         if negb (caddr_eqb c (caddr_of E b CT_BOOTREC)) then fail EBadboot
         else match e_bdec E b with None => fail ECorrupt | Some br => ret br end
  end.

(* silofs_repo_save_cobj, silofs_repo_create_ref: lib/repo.c:2840-2853, 2909-2928 *)
Definition save_blob (h b : bytes) : M unit :=
  may_fail EIo ;;; fun s =>
  let old := contents (r_blobs (s_repo s) h) in
  match next_fate s with
  | (FGood, s') => (Ok tt, mkSt (upd_blob (s_repo s') h (overwrite b old)) (s_fates s') (s_descs s'))
  | (FBad n, s') =>
      (Err EIo, mkSt (upd_blob (s_repo s') h (overwrite (firstn n b) old)) (s_fates s') (s_descs s'))
  end.
Definition create_ref (c : caddr) : M unit :=
  may_fail EIo ;;; r <- get_repo ;; set_repo (upd_ref r c).

(* silofs_save_bootrec: lib/boot.c:673-705 *)
Definition save_bootrec (E : env) (br : bytes) : M caddr :=
  let b := e_benc E br in
  let c := caddr_of E b CT_BOOTREC in
  save_blob (ca_hash c) b ;;; create_ref c ;;; ret c.

(* ---- the index ---- *)
Definition PAR_INDEX_MAGIC := 2698613230471312165.  (* 0x2573666F6C697325: include/silofs/defs.h:39 *)
Definition PACK_VERSION := 1.                        (* defs.h:30 *)
Definition PAR_INDEX_MIN := LBK_SIZE.                (* defs.h:1017 *)
Definition PAR_INDEX_MAX := 256 * 2 ^ 20.            (* defs.h:1020 *)
Definition HDR_SIZE := 1024.
Definition DSC_SIZE := 256.

(* silofs_caddr64b_htox/xtoh: lib/addr/caddr.c:199-214; struct: defs.h:574-579 *)
Definition caddr64b_htox (c : caddr) : bytes :=
  ca_hash c ++ le_enc 4 (ca_size c) ++ [u8 (ca_type c)] ++ repeat 0 27.
Definition caddr64b_xtoh (b : bytes) : caddr :=
  mkCaddr (sub 0 32 b) (le_dec (sub 32 4 b)) (le_dec (sub 36 1 b)).

(* pardsc256b_htox/xtoh: lib/pack.c:166-179; struct: defs.h:1023-1027 *)
Definition desc_htox (d : desc) : bytes :=
  caddr64b_htox (d_caddr d) ++ laddr48b_htox (d_laddr d) ++ repeat 0 144.
Definition desc_xtoh (b : bytes) : desc :=
  mkDesc (caddr64b_xtoh (sub 0 64 b)) (laddr48b_xtoh (sub 64 48 b)).

(* pindex_size_of: lib/pack.c:454-463 *)
Definition index_size (n : Z) : Z :=
  (HDR_SIZE + n * DSC_SIZE + LBK_SIZE - 1) / LBK_SIZE * LBK_SIZE.

Definition index_size_ok (n : Z) : bool := (PAR_INDEX_MIN <=? n) && (n <=? PAR_INDEX_MAX).

(* number of descriptors that fit: piview_setup, lib/pack.c:276-292 *)
Definition ndescs_max (sz : Z) : Z := (sz - HDR_SIZE) / DSC_SIZE.

(* struct silofs_par_hdr1k up to its last field: defs.h:1030-1038; parhdr1k_init,
   piview_encode_hdr: lib/pack.c:110-119, 318-326 *)
Definition hdr_head (n csum : Z) : bytes :=
  le_enc 8 PAR_INDEX_MAGIC ++ le_enc 4 PACK_VERSION ++ le_enc 4 0 ++ le_enc 8 n ++ le_enc 8 csum
  ++ repeat 0 984.

(* pindex_encode into a zeroed buffer of size sz: lib/pack.c:486-506, 553-575; the
   descriptors in order, zeros after them, and a header with both checksums *)
Definition index_area (ds : list desc) (sz : Z) : bytes :=
  concat (map desc_htox ds) ++ repeat 0 (Z.to_nat ((ndescs_max sz - Z.of_nat (length ds)) * DSC_SIZE)).
Definition index_bytes (E : env) (ds : list desc) (sz : Z) : bytes :=
  let area := index_area ds sz in
  let h := hdr_head (Z.of_nat (length ds)) (e_xxh E area) in
  h ++ le_enc 8 (e_xxh E h) ++ area.

(* pindex_decode: lib/pack.c:587-615, 294-306, 333-355, 508-523.  The number of
   descriptors comes from the header and is not compared with the size of the
   object: more of them than it holds is a read outside the buffer. *)
Definition index_decode (E : env) (c : caddr) (b : bytes) : res (list desc) :=
  let sz := Z.of_nat (length b) in
  if negb (index_size_ok sz) then Err EInval
  else
  let max := ndescs_max sz in
  let body := firstn (Z.to_nat (HDR_SIZE + max * DSC_SIZE)) b in
  let area := skipn 1024 body in
  if negb (caddr_eqb c (caddr_of E body CT_PACKIDX)) then Err ECsum
  else if negb (le_dec (sub 0 8 body) =? PAR_INDEX_MAGIC) then Err ECorrupt
  else if negb (le_dec (sub 8 4 body) =? PACK_VERSION) then Err EProto
  else if negb (le_dec (sub 1016 8 body) =? e_xxh E (firstn 1016 body)) then Err ECsum
  else if negb (le_dec (sub 24 8 body) =? e_xxh E area) then Err ECsum
  else
  let n := le_dec (sub 16 8 body) in
  if max <? n then Abort
  else Ok (map (fun i => desc_xtoh (sub (256 * i) 256 area)) (seq 0 (Z.to_nat n))).

(* ---- archive ---- *)
Definition is_bootrec (a : laddr) : bool := ls_ltype (la_lsid a) =? LT_BOOTREC.

(* a mounted file-system: roots of its object spaces (for the types LT_INODE..LT_DATABK,
   in order), address of its super-block, content address of its boot record *)
Record vol := mkVol { v_roots : list (option link); v_super : laddr; v_boot : caddr }.

(* pac_export_segdata: lib/pack.c:810-837 *)
Definition export_seg (E : env) (a : laddr) : M caddr :=
  may_fail ENomem ;;;
  b <- read_at a ;;
  let c := caddr_of E b CT_ENCSEG in
  send_pack c b ;;; ret c.

(* pac_export_bootrec, pac_load_bootrec: lib/pack.c:753-771, 875-894 *)
Definition export_boot (E : env) (v : vol) : M caddr :=
  if negb (ca_type (v_boot v) =? CT_BOOTREC) then abort
  else
  br <- load_bootrec E (v_boot v) ;;
  send_pack (v_boot v) (e_benc E br) ;;; ret (v_boot v).

Definition push_desc (d : desc) : M unit := fun s =>
  (Ok tt, mkSt (s_repo s) (s_fates s) (d :: s_descs s)).

(* pac_export_by_laddr: lib/pack.c:927-943: the descriptor goes to the front of the
   list; it is taken off again if the export fails *)
Definition export_laddr (E : env) (v : vol) (a : laddr) : M unit :=
  may_fail ENomem ;;;
  c <- (if is_bootrec a then export_boot E v else export_seg E a) ;;
  push_desc (mkDesc c a).

(* inspc_exec_lmap: lib/inspect.c:46-59 *)
Fixpoint export_all (E : env) (v : vol) (l : list laddr) : M unit :=
  match l with
  | [] => ret tt
  | a :: r => export_laddr E v a ;;; export_all E v r
  end.

(* silofs_laddr_isnext: lib/addr/laddr.c:363-382 *)
Definition laddr_isnext (a b : laddr) : bool :=
  (ls_ltype (la_lsid a) =? ls_ltype (la_lsid b)) && (la_pos b =? la_end a)
  && (la_end a <=? ls_lsize (la_lsid b)) && lsid_eqb (la_lsid a) (la_lsid b).

(* lmap_append: lib/spmaps.c:1415-1460; the list is kept last entry first *)
Definition lmap_append (m : list laddr) (a : laddr) : list laddr :=
  if laddr_isnull a then m
  else match m with
       | p :: q => if laddr_isnext p a then mkLaddr (la_lsid p) (la_pos p) (la_len p + la_len a) :: q
                   else a :: m
       | [] => [a]
       end.
Definition lmap_of (l : list laddr) : list laddr := rev (fold_left lmap_append l []).

(* silofs_sni_resolve_lmap: lib/spmaps.c:1695-1713: every child address, null ones skipped *)
Definition node_lmap (sl : list (option link)) : list laddr :=
  lmap_of (flat_map (fun o => match o with Some lk => [lk_addr lk] | None => [] end) sl).

(* silofs_sli_resolve_lmap: lib/spmaps.c:1462-1488: blocks in use.  The loop ends when
   the bytes seen reach the total kept for the leaf; the assertion after it says the
   total is the sum over all slots *)
Definition leaf_lmap (sl : list slot) : list laddr :=
  lmap_of (map sl_addr (filter (fun x => 0 <? sl_used x) sl)).

(* inspc_exec_at: lib/inspect.c:82-119 *)
Definition inspect_hook (E : env) (v : vol) : hook := fun x =>
  match x with
  | VLeaf sl => export_all E v (leaf_lmap sl)
  | VNode sl => export_all E v (node_lmap sl)
  | VTree _ => ret tt
  end.

(* silofs_sbi_resolve_lmap: lib/super.c:1018-1034 *)
Definition roots_of (v : vol) : list laddr :=
  flat_map (fun o => match o with Some lk => [lk_addr lk] | None => [] end) (v_roots v).

(* bootrec_uaddr_by_lvid, silofs_uaddr_setup: lib/boot.c:500-509, lib/addr/uaddr.c:39-47 *)
Definition boot_laddr (lvid : bytes) : laddr :=
  laddr_setup (lsid_setup lvid 0 LT_BOOTREC H_BOOT LT_BOOTREC) 0 (ltype_size LT_BOOTREC).

(* inspc_walk_fs: lib/inspect.c:182-225 *)
Definition export_fs (E : env) (v : vol) : M unit :=
  walk_spaces E (inspect_hook E v) (v_roots v) ;;;
  export_all E v (roots_of v) ;;;
  export_laddr E v (v_super v) ;;;
  export_laddr E v (boot_laddr (ls_lvid (la_lsid (v_super v)))).

(* pac_export_pindex: lib/pack.c:957-1006 *)
Definition export_index (E : env) : M caddr := fun s =>
  let ds := s_descs s in
  let sz := index_size (Z.of_nat (length ds)) in
  (if negb (index_size_ok sz) then fail EInval
   else may_fail ENomem ;;;
        let b := index_bytes E ds sz in
        let c := caddr_of E b CT_PACKIDX in
        save_pack c b ;;; ret c) s.

(* silofs_fs_pack, pac_do_export: lib/pack.c:1015-1051; yields the name of the index *)
Definition fs_pack (E : env) (v : vol) : M caddr :=
  (fun s => (Ok tt, mkSt (s_repo s) (s_fates s) [])) ;;;
  export_fs E v ;;; export_index E.

(* ---- restore ---- *)
(* pac_import_pindex, pac_stat_pindex, pac_load_decode_pindex: lib/pack.c:1059-1128 *)
Definition import_index (E : env) (c : caddr) : M (list desc) :=
  if negb (ca_type c =? CT_PACKIDX) then abort
  else
  may_fail EIo ;;;
  r <- get_repo ;;
  match r_packs r c with
  | None => fail EIo
  | Some e =>
    let sz := Z.of_nat (length e) in
    if negb (index_size_ok sz) then fail EInval
    else
    may_fail ENomem ;;;
    b <- load_pack c sz ;;
    may_fail ENomem ;;;
    match index_decode E c b with
    | Ok ds => ret ds
    | Err e => fail e
    | Abort => abort
    end
  end.

(* pac_save_seg: lib/pack.c:727-751 *)
Definition save_seg (a : laddr) (b : bytes) : M unit :=
  repo_require_lseg (la_lsid a) ;;; require_laddr a ;;; write_at a b.

(* pac_import_segdata: lib/pack.c:839-863 *)
Definition import_seg (d : desc) : M unit :=
  may_fail ENomem ;;;
  b <- load_pack (d_caddr d) (la_len (d_laddr d)) ;;
  save_seg (d_laddr d) b.

(* pac_import_bootrec, pac_save_bootrec: lib/pack.c:773-794, 896-912 *)
Definition import_boot (E : env) (d : desc) : M unit :=
  b <- load_pack (d_caddr d) BOOTREC_SIZE ;;
  match e_bdec E b with
  | None => fail ECorrupt
  | Some br =>
    c2 <- save_bootrec E br ;;
    if caddr_eqb (d_caddr d) c2 then ret tt else fail EBadboot
  end.

(* pac_import_fs: lib/pack.c:1130-1157 *)
Fixpoint import_all (E : env) (ds : list desc) : M unit :=
  match ds with
  | [] => ret tt
  | d :: r => (if is_bootrec (d_laddr d) then import_boot E d else import_seg d) ;;; import_all E r
  end.

(* pac_import_post: lib/pack.c:1159-1178 *)
Definition import_post (ds : list desc) : M caddr :=
  match filter (fun d => is_bootrec (d_laddr d)) ds with
  | [d] => ret (d_caddr d)
  | _ => fail EBadpack
  end.

(* silofs_fs_unpack, pac_do_import: lib/pack.c:1180-1216; yields the name of the boot record *)
Definition fs_unpack (E : env) (c : caddr) : M caddr :=
  ds <- import_index E c ;;
  import_all E ds ;;;
  import_post ds.
