(* Removal of a file-system: lib/delfs.c and silofs_unref_fs of lib/execlib.c, over
   WalkModel.

   Simplifications:
   - the super-block is read, but what it decodes to (the roots of the object spaces
     and whether it is marked as the base of a snapshot) is given with the volume;
   - silofs_do_unrefs flushes before the walk and silofs_unref_fs closes the
     file-system after it: nothing is dirty there (lib/namei.c:2517-2531,
     lib/execlib.c:1669-1687), so both are left out. *)
From Verif Require Import Base AddrModel WalkModel PackModel.

(* the volume id: silofs_lsid_has_lvid of the super-block's segment, lib/delfs.c:42-49 *)
Definition volume (v : vol) : bytes := ls_lvid (la_lsid (v_super v)).

(* delfc_try_remove_lseg_of: lib/delfs.c:59-78 *)
Definition try_remove (v : vol) (l : lsid) : M unit :=
  if negb (bytes_eqb (ls_lvid l) (volume v)) then ret tt
  else or_noent (stat_lseg l) (remove_lseg l) (ret tt).

(* delfc_post_at_spleaf, delfc_post_at_lseg_of, sli_resolve_lseg_of: lib/delfs.c:80-116,
   28-39; silofs_sli_resolve_child: lib/spmaps.c:1394-1405.  Every slot, in use or not. *)
Fixpoint remove_blocks (v : vol) (sl : list slot) : M unit :=
  match sl with
  | [] => ret tt
  | x :: r =>
      if laddr_isnull (sl_addr x) then fail ENoent
      else try_remove v (la_lsid (sl_addr x)) ;;; remove_blocks v r
  end.

(* delfc_post_at_spnode: lib/delfs.c:123-146 *)
Fixpoint remove_children (v : vol) (sl : list (option link)) : M unit :=
  match sl with
  | Some lk :: r => try_remove v (la_lsid (lk_addr lk)) ;;; remove_children v r
  | _ => ret tt
  end.

(* delfc_post_at, delfc_post_at_super: lib/delfs.c:148-199 *)
Definition remove_hook (v : vol) : hook := fun x =>
  match x with
  | VLeaf sl => remove_blocks v sl
  | VNode sl => remove_children v sl
  | VTree None => fail ENoent
  | VTree (Some lk) => try_remove v (la_lsid (lk_addr lk))
  end.

(* silofs_walk_unref_fs, delfc_remove_super: lib/delfs.c:239-259 *)
Definition walk_unref (E : env) (v : vol) : M unit :=
  walk_spaces E (remove_hook v) (v_roots v) ;;;
  try_remove v (la_lsid (v_super v)).

(* silofs_stat_bootrec: lib/boot.c:741-762 *)
Definition stat_bootrec (c : caddr) : M unit :=
  may_fail EIo ;;;
  r <- get_repo ;;
  if negb (r_refs r c) then fail EIo
  else may_fail EIo ;;;
  match r_blobs r (ca_hash c) with
  | None => fail EIo
  | Some e => if Z.of_nat (length e) =? BOOTREC_SIZE then ret tt else fail EBadboot
  end.

Definition del_blob (r : repo) (h : bytes) : repo :=
  mkRepo (r_segs r) (r_packs r) (fun x => if bytes_eqb x h then None else r_blobs r x) (r_refs r).
Definition del_ref (r : repo) (c : caddr) : repo :=
  mkRepo (r_segs r) (r_packs r) (r_blobs r) (fun x => negb (caddr_eqb x c) && r_refs r x).

(* silofs_repo_unlink_cobj, silofs_repo_remove_ref: lib/repo.c:2877-2894, 2928-2947 *)
Definition unlink_blob (h : bytes) : M unit :=
  may_fail EIo ;;;
  r <- get_repo ;;
  match r_blobs r h with
  | None => fail EIo
  | Some _ => set_repo (del_blob r h)
  end.
Definition remove_ref (c : caddr) : M unit :=
  may_fail EIo ;;;
  r <- get_repo ;;
  if r_refs r c then set_repo (del_ref r c) else fail EIo.

(* unlink_bootrec_of, silofs_unlink_bootrec: lib/execlib.c:1777-1791, lib/boot.c:764-780 *)
Definition unlink_bootrec (c : caddr) : M unit :=
  stat_bootrec c ;;; unlink_blob (ca_hash c) ;;; remove_ref c.

(* reload_bootrec, reload_root_lseg, reload_super, check_superblock: lib/execlib.c:1465-1497,
   1608-1613, 1030-1045, 1009-1028; stage_super_at: lib/ustage.c:375-413.  A base of
   snapshots is refused. *)
Definition reload_fs (E : env) (v : vol) (fossil : bool) : M unit :=
  stat_bootrec (v_boot v) ;;;
  load_bootrec E (v_boot v) ;;;
  open_lseg (la_lsid (v_super v)) ;;;
  stage_bytes (mkLink (v_super v) []) ;;;
  if fossil then fail ERofs else ret tt.

(* silofs_unref_fs: lib/execlib.c:1793-1824 *)
Definition fs_remove (E : env) (v : vol) (fossil : bool) : M unit :=
  reload_fs E v fossil ;;;
  walk_unref E v ;;;
  unlink_bootrec (v_boot v).
