(* Traversal of the space maps of one file-system, as used by archiving
   (lib/inspect.c, lib/pack.c) and by removal (lib/delfs.c): lib/walk.c, over the
   segment files of the repository: lib/repo.c, lib/ustage.c.

   Simplifications:
   - a segment file is its size and its bytes; the table of open handles
     (repo_htbl) is left out: every access opens the file;
   - the file of a segment is named by the SHA-256 of its id; here by the id;
   - nodes are read from the repository when staged (the file-system was flushed
     before: lib/fs.c runs archive and remove on a synced mount), and what
     decryption, verification and decoding make of the bytes of a node is a
     parameter: e_node, e_leaf;
   - every call below may fail: a list of fates says which do. *)
From Verif Require Import Base AddrModel.

(* ---- outcomes ---- *)
Inductive perr := ENoent | EExist | EInval | ELseg | EIo | ENomem | ECorrupt | EProto
                | ECsum | EBadboot | EBadpack | ENoref | ERofs | EKeyexp | ENosupp.

Inductive res (A : Type) := Ok (a : A) | Err (e : perr) | Abort.
Arguments Ok {A} a. Arguments Err {A} e. Arguments Abort {A}.

(* what happens at a point that may fail; for a write, how many bytes get there *)
Inductive fate := FGood | FBad (n : nat).

(* ---- content addresses: include/silofs/addr/caddr.h, lib/addr/caddr.c:31-38 ---- *)
Record caddr := mkCaddr { ca_hash : bytes; ca_size : Z; ca_type : Z }.

(* include/silofs/defs.h:347-352 *)
Definition CT_BOOTREC := 1.
Definition CT_PACKIDX := 2.
Definition CT_ENCSEG := 3.

Fixpoint bytes_eqb (a b : bytes) : bool :=
  match a, b with
  | [], [] => true
  | x :: a', y :: b' => (x =? y) && bytes_eqb a' b'
  | _, _ => false
  end.

(* silofs_caddr_isequal: lib/addr/caddr.c:53-59 *)
Definition caddr_eqb (a b : caddr) : bool :=
  (ca_size a =? ca_size b) && (ca_type a =? ca_type b) && bytes_eqb (ca_hash a) (ca_hash b).

(* silofs_lsid_isequal: lib/addr/laddr.c:174-210 *)
Definition lsid_eqb (a b : lsid) : bool :=
  (ls_lsize a =? ls_lsize b) && (ls_vindex a =? ls_vindex b) && (ls_vspace a =? ls_vspace b)
  && (ls_height a =? ls_height b) && (ls_ltype a =? ls_ltype b)
  && bytes_eqb (ls_lvid a) (ls_lvid b).

(* ---- the repository ---- *)
(* a segment file: its size and the byte at each position below it *)
Record seg := mkSeg { sg_size : Z; sg_at : Z -> Z }.

(* objs/: segments by id; pack/: archive objects by content address; blobs/: boot
   records by digest; refs/: empty files named by content address *)
Record repo := mkRepo {
  r_segs : lsid -> option seg;
  r_packs : caddr -> option bytes;
  r_blobs : bytes -> option bytes;
  r_refs : caddr -> bool }.

(* struct silofs_par_desc: lib/pack.c:21-24 *)
Record desc := mkDesc { d_caddr : caddr; d_laddr : laddr }.

Record st := mkSt { s_repo : repo; s_fates : list fate; s_descs : list desc }.

Definition M (A : Type) := st -> res A * st.
Definition ret {A} (a : A) : M A := fun s => (Ok a, s).
Definition fail {A} (e : perr) : M A := fun s => (Err e, s).
Definition abort {A} : M A := fun s => (Abort, s).
Definition bind {A B} (m : M A) (k : A -> M B) : M B := fun s =>
  match m s with
  | (Ok a, s') => k a s'
  | (Err e, s') => (Err e, s')
  | (Abort, s') => (Abort, s')
  end.
Notation "x <- m ;; k" := (bind m (fun x => k)) (at level 61, m at next level, right associativity).
Notation "m ;;; k" := (bind m (fun _ => k)) (at level 61, right associativity).

Definition next_fate (s : st) : fate * st :=
  match s_fates s with
  | [] => (FGood, s)
  | f :: r => (f, mkSt (s_repo s) r (s_descs s))
  end.
(* a step that either does nothing or fails *)
Definition may_fail (e : perr) : M unit := fun s =>
  match next_fate s with
  | (FGood, s') => (Ok tt, s')
  | (FBad _, s') => (Err e, s')
  end.
Definition get_repo : M repo := fun s => (Ok (s_repo s), s).
Definition set_repo (r : repo) : M unit := fun s => (Ok tt, mkSt r (s_fates s) (s_descs s)).

Definition upd_seg (r : repo) (l : lsid) (v : option seg) : repo :=
  mkRepo (fun x => if lsid_eqb x l then v else r_segs r x) (r_packs r) (r_blobs r) (r_refs r).

(* ---- segment files ---- *)
Definition la_end (a : laddr) : Z := la_pos a + la_len a.

(* the n bytes from position p *)
Definition sread (g : seg) (p n : Z) : bytes :=
  map (fun i => sg_at g (p + Z.of_nat i)) (seq 0 (Z.to_nat n)).

(* pwrite of b at p within the size of the file *)
Definition swrite (g : seg) (p : Z) (b : bytes) : seg :=
  mkSeg (sg_size g)
    (fun x => if (p <=? x) && (x <? p + Z.of_nat (length b))
              then nth (Z.to_nat (x - p)) b 0 else sg_at g x).

(* ftruncate to a larger size: the new part reads as zeros *)
Definition sgrow (g : seg) (n : Z) : seg :=
  mkSeg n (fun x => if x <? sg_size g then sg_at g x else 0).

Definition round_lbk (n : Z) : Z := off_align (n + LBK_SIZE - 1) LBK_SIZE.

(* repo_do_stat_lseg, repo_objs_stat_lseg: lib/repo.c:2432-2452, 1791-1814 *)
Definition stat_lseg (l : lsid) : M unit :=
  may_fail EIo ;;;
  r <- get_repo ;;
  match r_segs r l with
  | None => fail ENoent
  | Some g => if sg_size g >? ls_lsize l + LBK_SIZE then fail EIo else ret tt
  end.

(* repo_stage_lseg_of, repo_objs_open_lseg_of, lsegf_inspect_size: lib/repo.c:2498-2514,
   1712-1743, 756-778 *)
Definition open_lseg (l : lsid) : M seg :=
  may_fail EIo ;;;
  r <- get_repo ;;
  match r_segs r l with
  | None => fail ENoent
  | Some g =>
    if negb (sg_size g mod LBK_SIZE =? 0) then fail ELseg
    else if sg_size g >? ls_lsize l + LBK_SIZE then fail ELseg
    else ret g
  end.

(* repo_do_spawn_lseg, repo_objs_create_lseg, repo_objs_create_lseg_of,
   lsegf_reassign_size: lib/repo.c:2466-2485, 1817-1842, 1686-1710, 785-804:
   a new file of the full capacity, all zeros *)
Definition spawn_lseg (l : lsid) : M unit :=
  may_fail EIo ;;;
  r <- get_repo ;;
  match r_segs r l with
  | Some _ => fail EExist
  | None => set_repo (upd_seg r l (Some (mkSeg (round_lbk (ls_lsize l)) (fun _ => 0))))
  end.

(* on -SILOFS_ENOENT of m, do k *)
Definition or_noent {A} (m : M A) (k h : M A) : M A := fun s =>
  match m s with
  | (Ok _, s') => k s'
  | (Err ENoent, s') => h s'
  | (Err e, s') => (Err e, s')
  | (Abort, s') => (Abort, s')
  end.

(* repo_do_require_lseg: lib/repo.c:2625-2638 *)
Definition repo_require_lseg (l : lsid) : M unit :=
  or_noent (stat_lseg l) (open_lseg l ;;; ret tt) (spawn_lseg l ;;; open_lseg l ;;; ret tt).

(* require_lseg: lib/ustage.c:252-264 *)
Definition require_lseg (l : lsid) : M unit :=
  or_noent (stat_lseg l) (open_lseg l ;;; ret tt) (spawn_lseg l).

(* repo_do_read_at, lsegf_check_laddr, lsegf_load_bb: lib/repo.c:2728-2752, 996-1000,
   949-984; a range past the end of the file trips silofs_assert_ok *)
Definition read_at (a : laddr) : M bytes :=
  g <- open_lseg (la_lsid a) ;;
  if sg_size g <? la_end a then abort
  else if la_pos a <? 0 then fail EInval
  else if la_end a >? ls_lsize (la_lsid a) + LBK_SIZE then fail ELseg
  else may_fail EIo ;;; ret (sread g (la_pos a) (la_len a)).

(* lsegf_require_size_ge, lsegf_reassign_size: lib/repo.c:807-818, 785-804 *)
Definition require_size_ge (l : lsid) (off len : Z) : M unit :=
  g <- open_lseg l ;;
  let want := Z.max (off + len) (off_next off LBK_SIZE) in
  if sg_size g >=? want then ret tt
  else if want <? 0 then fail EInval
  else if want >? ls_lsize l + LBK_SIZE then fail ELseg
  else may_fail EIo ;;;
       r <- get_repo ;;
       set_repo (upd_seg r l (Some (sgrow g (round_lbk want)))).

(* repo_do_require_laddr: lib/repo.c:2651-2670 *)
Definition require_laddr (a : laddr) : M unit :=
  require_size_ge (la_lsid a) (la_pos a) (la_len a).

(* do_pwriten on an open segment; a failing write leaves a prefix of the bytes *)
Definition pwrite_lseg (l : lsid) (g : seg) (p : Z) (b : bytes) : M unit := fun s =>
  match next_fate s with
  | (FGood, s') =>
      (Ok tt, mkSt (upd_seg (s_repo s') l (Some (swrite g p b))) (s_fates s') (s_descs s'))
  | (FBad n, s') =>
      (Err EIo, mkSt (upd_seg (s_repo s') l (Some (swrite g p (firstn n b)))) (s_fates s') (s_descs s'))
  end.

(* repo_do_writev_at, lsegf_writev, lsegf_pwriten: lib/repo.c:2683-2703, 930-946, 879-896 *)
Definition write_at (a : laddr) (b : bytes) : M unit :=
  require_size_ge (la_lsid a) (la_pos a) (la_len a) ;;;
  g <- open_lseg (la_lsid a) ;;
  if la_pos a <? 0 then fail EInval
  else if la_end a >? ls_lsize (la_lsid a) + LBK_SIZE then fail ELseg
  else pwrite_lseg (la_lsid a) g (la_pos a) b.

(* repo_do_remove_lseg, repo_objs_unlink_lseg: lib/repo.c:2543-2563, 1745-1766 *)
Definition remove_lseg (l : lsid) : M unit :=
  may_fail EIo ;;;
  r <- get_repo ;;
  match r_segs r l with
  | None => fail EIo
  | Some _ => set_repo (upd_seg r l None)
  end.

(* ---- map nodes ---- *)
(* struct silofs_ulink: an address and the seed kept beside it in the parent *)
Record link := mkLink { lk_addr : laddr; lk_iv : bytes }.

(* one slot of a leaf: bytes of it in use, address of its block *)
Record slot := mkSlot { sl_used : Z; sl_addr : laddr }.

Record env := mkEnv {
  e_hash : bytes -> bytes;         (* SHA-256: lib/crypt *)
  e_xxh : bytes -> Z;              (* silofs_hash_xxh64 seeded with SILOFS_PAR_INDEX_MAGIC *)
  (* decrypt, verify and decode the bytes of a node at height h (1 to 4), or of a leaf *)
  e_node : nat -> link -> bytes -> option (list (option link));
  e_leaf : link -> bytes -> option (list slot);
  (* boot records: decrypt+verify+decode, and encode+stamp+encrypt: lib/boot.c:546-577 *)
  e_bdec : bytes -> option bytes;
  e_benc : bytes -> bytes }.

Definition of_opt {A} (o : option A) : M A :=
  match o with Some a => ret a | None => fail ECorrupt end.

(* silofs_stage_spnode, silofs_stage_spleaf, stage_load_view, require_lseg_by:
   lib/ustage.c:266-297, 496-534, 617-655 *)
Definition stage_bytes (lk : link) : M bytes :=
  require_lseg (la_lsid (lk_addr lk)) ;;;
  open_lseg (la_lsid (lk_addr lk)) ;;;
  read_at (lk_addr lk).

Definition stage_node (E : env) (h : nat) (lk : link) : M (list (option link)) :=
  b <- stage_bytes lk ;; of_opt (e_node E h lk b).

Definition stage_leaf (E : env) (lk : link) : M (list slot) :=
  b <- stage_bytes lk ;; of_opt (e_leaf E lk b).

(* ---- the walk ---- *)
(* what a visitor's post-hook is called with: a leaf, a node, or the root of one
   object space (possibly absent) *)
Inductive visit := VLeaf (sl : list slot) | VNode (sl : list (option link)) | VTree (r : option link).
Definition hook := visit -> M unit.

(* wac_do_traverse_spnode1..4: lib/walk.c:329-349, 405-425, 481-501, 557-577.
   Slots in order up to the first without a child; a child's -SILOFS_ENOENT is
   passed over, any other error ends the loop. *)
Fixpoint walk_slots (f : link -> M unit) (sl : list (option link)) : M unit :=
  match sl with
  | Some lk :: r => fun s =>
      match f lk s with
      | (Ok _, s') => walk_slots f r s'
      | (Err ENoent, s') => walk_slots f r s'
      | (Err e, s') => (Err e, s')
      | (Abort, s') => (Abort, s')
      end
  | _ => ret tt
  end.

(* wac_do_traverse_spnodeN_child, wac_traverse_at_spnodeN, wac_do_traverse_spleaf:
   lib/walk.c:278-317, 361-393, 437-469, 513-545, 589-621: stage the node, go through
   its children, then call the post-hook *)
Fixpoint walk_node (E : env) (k : hook) (h : nat) (lk : link) : M unit :=
  match h with
  | O => sl <- stage_leaf E lk ;; k (VLeaf sl)
  | S h' =>
      sl <- stage_node E h lk ;;
      walk_slots (walk_node E k h') sl ;;;
      k (VNode sl)
  end.

(* wac_do_traverse_sptree, wac_traverse_sptree: lib/walk.c:633-663 *)
Definition walk_tree (E : env) (k : hook) (root : option link) : M unit :=
  match root with
  | None => ret tt
  | Some lk => or_noent (walk_node E k 4 lk) (ret tt) (ret tt)
  end ;;;
  k (VTree root).

(* wac_traverse_spaces: lib/walk.c:676-692: one root per type of object, in order *)
Fixpoint walk_spaces (E : env) (k : hook) (roots : list (option link)) : M unit :=
  match roots with
  | [] => ret tt
  | r :: q => walk_tree E k r ;;; walk_spaces E k q
  end.
