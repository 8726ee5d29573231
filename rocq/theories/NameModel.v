(* The namespace: directories, names, link counts, open counts; the operations of lib/namei.c
   with the link accounting of lib/dir.c.

   A directory holds the list of its (name, inode) entries: that the on-disk directory is such
   a map is DirProps.v.  Inodes are a table keyed by number.  Times, modes and owners are left
   out: a permission check is a point that may fail.  Points that may fail draw their outcome
   from a list of booleans (true: fails; the end of the list: all is well from there on).
   Operations run alone (the file-system lock is held, op_start in lib/opers.c). *)
From Verif Require Import Base.

Notation name := (list Z).

(* struct silofs_inode_info with the fields of struct silofs_inode used here; i_ents for
   directories only.  i_pin: SILOFS_LNF_PINNED.  i_lost: the node was dropped while still in
   the table (drop_ispecific went through, silofs_remove_inode did not). *)
Record inode := mkIno { i_dir : bool; i_nlink : Z; i_parent : Z; i_nopen : Z; i_pin : bool;
                        i_ents : list (name * Z); i_lost : bool }.
Definition with_nlink (i : inode) n := mkIno (i_dir i) n (i_parent i) (i_nopen i) (i_pin i) (i_ents i) (i_lost i).
Definition with_parent (i : inode) p := mkIno (i_dir i) (i_nlink i) p (i_nopen i) (i_pin i) (i_ents i) (i_lost i).
Definition with_nopen (i : inode) n := mkIno (i_dir i) (i_nlink i) (i_parent i) n (i_pin i) (i_ents i) (i_lost i).
Definition with_pin (i : inode) b := mkIno (i_dir i) (i_nlink i) (i_parent i) (i_nopen i) b (i_ents i) (i_lost i).
Definition with_ents (i : inode) l := mkIno (i_dir i) (i_nlink i) (i_parent i) (i_nopen i) (i_pin i) l (i_lost i).
Definition with_lost (i : inode) b := mkIno (i_dir i) (i_nlink i) (i_parent i) (i_nopen i) (i_pin i) (i_ents i) b.

(* the inode table, each number once *)
Notation ns := (list (Z * inode)).
Definition INO_NULL := 0.
Definition INO_ROOT := 1.
Definition LINK_MAX := 32767.
Definition DIR_ENTRIES_MAX := 480 * 2 ^ 24.

Fixpoint get (s : ns) (k : Z) : option inode :=
  match s with [] => None | (j, i) :: r => if j =? k then Some i else get r k end.
Fixpoint set (s : ns) (k : Z) (i : inode) : ns :=
  match s with [] => [] | (j, x) :: r => if j =? k then (j, i) :: r else (j, x) :: set r k i end.
Definition del (s : ns) (k : Z) : ns := filter (fun p => negb (fst p =? k)) s.

Inductive err := ENOENT | EEXIST | ENOTDIR | EISDIR | ENOTEMPTY | EMLINK | EINVAL | EBUSY | EBADF | EFAIL.
Inductive res (A : Type) :=
| Ok (a : A) (o : list bool) (s : ns)
| Er (e : err) (o : list bool) (s : ns)
| Abort.
Arguments Ok {A}. Arguments Er {A}. Arguments Abort {A}.
Definition M (A : Type) := list bool -> ns -> res A.
Definition ret {A} (a : A) : M A := fun o s => Ok a o s.
Definition fail {A} (e : err) : M A := fun o s => Er e o s.
Definition bind {A B} (m : M A) (f : A -> M B) : M B :=
  fun o s => match m o s with Ok a o' s' => f a o' s' | Er e o' s' => Er e o' s' | Abort => Abort end.
Definition draw : M bool := fun o s => match o with [] => Ok false [] s | b :: r => Ok b r s end.
Definition may_fail : M unit := bind draw (fun b => if b then fail EFAIL else ret tt).
Definition state : M ns := fun o s => Ok s o s.
Definition update (f : ns -> ns) : M unit := fun o s => Ok tt o (f s).
Definition require (b : bool) (e : err) : M unit := if b then ret tt else fail e.
Notation "x <- m ; f" := (bind m (fun x => f)) (at level 60, m at next level, right associativity).
Notation "m ;; f" := (bind m (fun _ => f)) (at level 60, right associativity).

(* silofs_stage_inode, lib/vstage.c *)
Definition stage (k : Z) : M inode :=
  may_fail;; s <- state; match get s k with Some i => ret i | None => fail ENOENT end.

(* the entry of a name: silofs_lookup_dentry, lib/dir.c:1790-1803 *)
Fixpoint ent_of (l : list (name * Z)) (n : name) : option Z :=
  match l with [] => None | (m, k) :: r => if bytes_eqb m n then Some k else ent_of r n end.
Fixpoint ent_del (l : list (name * Z)) (n : name) : list (name * Z) :=
  match l with [] => [] | (m, k) :: r => if bytes_eqb m n then r else (m, k) :: ent_del r n end.

(* lookup_by_name, lib/namei.c:445-463 *)
Definition lookup_by_name (d : Z) (n : name) : M Z :=
  di <- stage d; require (i_dir di) ENOTDIR;; may_fail;;
  match ent_of (i_ents di) n with Some k => ret k | None => fail ENOENT end.
(* stage_by_name, lib/namei.c:465-482 *)
Definition stage_by_name (d : Z) (n : name) : M (Z * inode) :=
  k <- lookup_by_name d n; i <- stage k; ret (k, i).
(* check_nodent, lib/namei.c:529-541 *)
Definition check_nodent (d : Z) (n : name) : M unit :=
  fun o s => match lookup_by_name d n o s with
             | Ok _ o' s' => Er EEXIST o' s'
             | Er ENOENT o' s' => Ok tt o' s'
             | Er e o' s' => Er e o' s'
             | Abort => Abort
             end.
(* check_dir_waccess, lib/namei.c:375-393 *)
Definition check_dir_waccess (d : Z) : M unit := di <- stage d; require (i_dir di) ENOTDIR;; may_fail.
(* check_add_dentry, lib/namei.c:543-560; the checks of the name itself may fail *)
Definition check_add_dentry (d : Z) : M unit :=
  di <- stage d; require (i_dir di) ENOTDIR;; may_fail;;
  require (zlen (i_ents di) <? DIR_ENTRIES_MAX) EMLINK;; require (2 <=? i_nlink di) ENOENT.
(* check_dir_can_add, lib/namei.c:562-581 *)
Definition check_dir_can_add (d : Z) (n : name) : M unit :=
  check_dir_waccess d;; check_nodent d n;; check_add_dentry d.
(* check_nomlink, lib/namei.c:1144-1149 *)
Definition check_nomlink (i : inode) : M unit := require (i_nlink i <? LINK_MAX) EMLINK.

(* dirc_update_nlink, lib/dir.c:1904-1929 *)
Definition update_nlink (d k : Z) (dif : Z) : M unit :=
  update (fun s => match get s k with
                   | Some c =>
                     let c1 := with_nlink c (i_nlink c + dif) in
                     let c2 := if 0 <? dif then with_parent c1 d
                               else if i_parent c1 =? d then with_parent c1 INO_NULL else c1 in
                     set s k c2
                   | None => s
                   end);;
  s <- state;
  match get s k with
  | Some c => if i_dir c
              then update (fun s => match get s d with Some di => set s d (with_nlink di (i_nlink di + dif)) | None => s end)
              else ret tt
  | None => ret tt
  end.
(* silofs_add_dentry, lib/dir.c:2022-2036, with dirc_do_add_dentry 1994-2008: a failure leaves
   the entries as they were *)
Definition add_dentry (d : Z) (n : name) (k : Z) : M unit :=
  may_fail;;
  update (fun s => match get s d with Some di => set s d (with_ents di (i_ents di ++ [(n, k)])) | None => s end);;
  update_nlink d k 1.
(* silofs_remove_dentry, lib/dir.c:2708-2720, with dirc_do_remove_dentry 2678-2696 and
   dirc_do_erase_dentry 2642-2653: removing the last entry also drops the empty tree, and that
   may fail when the entry is already gone *)
Definition remove_dentry (d : Z) (n : name) : M unit :=
  k <- lookup_by_name d n; _ <- stage k;
  update (fun s => match get s d with Some di => set s d (with_ents di (ent_del (i_ents di) n)) | None => s end);;
  update_nlink d k (-1);;
  s <- state;
  match get s d with
  | Some di => match i_ents di with [] => may_fail | _ => ret tt end
  | None => ret tt
  end.

(* silofs_remove_inode, lib/vstage.c:2935-2945 *)
Definition remove_inode (k : Z) : M unit := may_fail;; update (fun s => del s k).
(* drop_unlinked, lib/namei.c:909-927, with drop_ispecific 891-907: a directory loses its
   entries, which empties the tree but does not touch the inodes they name *)
Definition drop_unlinked (k : Z) : M unit :=
  may_fail;; may_fail;;
  update (fun s => match get s k with Some i => set s k (with_lost (with_ents i []) true) | None => s end);;
  remove_inode k.
(* ii_isnlink_orphan, lib/namei.c:942-954 *)
Definition nlink_orphan (i : inode) : bool := if i_dir i then i_nlink i <=? 1 else i_nlink i =? 0.
(* ii_isdropable, lib/namei.c:961-970, with silofs_ii_isevictable (lib/inode.c:552-561) and
   silofs_lni_isevictable (lib/lnodes.c:181-189).  busy: the node is held by a write in flight.
   That it has no dirty parts is the work of ii_undirtify_all just before. *)
Definition dropable (i : inode) (busy : bool) : bool :=
  (i_nopen i =? 0) && negb (i_pin i) && negb busy && nlink_orphan i.
(* try_prune_inode, lib/namei.c:998-1019.  A node still busy is queued and dropped at the end of
   the operation, when its writes are through (op_unlooseq, lib/opers.c:86-103;
   silofs_forget_loose_ii, lib/namei.c:2621-2630); if that fails the process panics
   (task_forget_looseq, lib/task.c:501-518).  The queue is served here at once: nothing else
   happens to the node in between. *)
Definition try_prune (k : Z) : M unit :=
  s <- state;
  match get s k with
  | None => ret tt
  | Some i =>
    busy <- draw;
    if dropable i busy then drop_unlinked k
    else if (i_nopen i =? 0) && nlink_orphan i && negb (i_pin i) then
      may_fail;;
      (fun o s => match drop_unlinked k o s with Er _ _ _ => Abort | r => r end)
    else ret tt
  end.

(* silofs_spawn_inode, lib/vstage.c:2829-2848; k is what the allocator returns, a number not in
   use (SpaceProps.v).  A directory starts with one link, anything else with none
   (ii_setup_inode, lib/inode.c:636-653). *)
Definition spawn (k : Z) (dir : bool) (parent : Z) : M unit :=
  may_fail;; s <- state;
  match get s k with
  | Some _ => fail EFAIL
  | None => if k =? INO_NULL then fail EFAIL
            else update (fun s => (k, mkIno dir (if dir then 1 else 0) parent 0 false [] false) :: s)
  end.
(* do_add_dentry, lib/namei.c:608-625 *)
Definition do_add_dentry (d : Z) (n : name) (k : Z) (del_upon_failure : bool) : M unit :=
  fun o s =>
    match add_dentry d n k o s with
    | Er e o' s' =>
      if del_upon_failure
      then match remove_inode k o' s' with Ok _ o2 s2 => Er e o2 s2 | Er _ o2 s2 => Er e o2 s2 | Abort => Abort end
      else Er e o' s'
    | r => r
    end.

(* do_create, lib/namei.c:627-652, and do_mknod_reg 716-732 (opened = false) *)
Definition create (d : Z) (n : name) (k : Z) (opened : bool) : M unit :=
  check_dir_can_add d n;; may_fail;; spawn k false d;; do_add_dentry d n k true;;
  if opened then update (fun s => match get s k with Some i => set s k (with_nopen i (i_nopen i + 1)) | None => s end) else ret tt.
(* do_mknod_special, lib/namei.c:734-762 *)
Definition mknod (d : Z) (n : name) (k : Z) : M unit :=
  check_dir_can_add d n;; may_fail;; spawn k false d;; do_add_dentry d n k true;;
  update (fun s => match get s k with Some i => set s k (with_pin i true) | None => s end).
(* do_symlink, lib/namei.c:1394-1419, with create_lnk_inode 1346-1363 *)
Definition symlink (d : Z) (n : name) (k : Z) : M unit :=
  check_dir_can_add d n;; may_fail;; spawn k false d;;
  (b <- draw; if b then (fun o s => match remove_inode k o s with Abort => Abort | Ok _ o' s' => Er EFAIL o' s' | Er _ o' s' => Er EFAIL o' s' end) else ret tt);;
  do_add_dentry d n k true.
(* do_mkdir, lib/namei.c:1228-1251, with check_mkdir 1211-1226 *)
Definition mkdir (d : Z) (n : name) (k : Z) : M unit :=
  check_dir_can_add d n;; di <- stage d; check_nomlink di;; spawn k true d;; do_add_dentry d n k true.
(* do_link, lib/namei.c:1176-1194, with check_link 1151-1174 *)
Definition link (d : Z) (n : name) (k : Z) : M unit :=
  i <- stage k; check_dir_waccess d;; require (negb (i_dir i)) EISDIR;; check_nodent d n;; check_nomlink i;;
  do_add_dentry d n k false.
(* do_unlink, lib/namei.c:1113-1130, with check_prepare_unlink 1085-1111 and remove_de_and_prune
   1052-1068 *)
Definition unlink (d : Z) (n : name) : M unit :=
  check_dir_waccess d;; p <- stage_by_name d n; may_fail;; require (negb (i_dir (snd p))) EISDIR;;
  remove_dentry d n;; try_prune (fst p).
(* silofs_dir_isempty, lib/dir.c:1219-1228 *)
Definition dir_isempty (i : inode) : bool := (i_nlink i <=? 2) && (zlen (i_ents i) =? 0).
(* check_rmdir_child, lib/namei.c:1266-1291 *)
Definition check_rmdir_child (k : Z) (i : inode) : M unit :=
  may_fail;; require (i_dir i) ENOTDIR;; require (dir_isempty i) ENOTEMPTY;; require (negb (k =? INO_ROOT)) EBUSY;; may_fail.
(* do_rmdir, lib/namei.c:1317-1333, with check_prepare_rmdir 1293-1315 *)
Definition rmdir (d : Z) (n : name) : M unit :=
  check_dir_waccess d;; p <- stage_by_name d n; check_rmdir_child (fst p) (snd p);;
  remove_dentry d n;; try_prune (fst p).

(* update_nopen, lib/namei.c:134-147; do_open 857-872; do_opendir 1467-1478 *)
Definition open (k : Z) : M unit :=
  _ <- stage k; may_fail;;
  update (fun s => match get s k with Some i => set s k (with_nopen i (i_nopen i + 1)) | None => s end).
(* silofs_do_release, lib/namei.c:1618-1628, with do_release 1600-1616; silofs_do_releasedir 1567-1578 the same *)
Definition release (k : Z) : M unit :=
  i <- stage k; require (negb (i_nopen i =? 0)) EBADF;; may_fail;;
  update (fun s => match get s k with Some i => set s k (with_nopen i (i_nopen i - 1)) | None => s end);;
  try_prune k.
(* do_forget, lib/namei.c:2590-2605; the cached copy of a node may go, the node itself not *)
Definition forget (k : Z) : M unit :=
  s <- state;
  match get s k with
  | Some i => if i_pin i then update (fun s => set s k (with_pin i false));; try_prune k else ret tt
  | None => ret tt
  end.

(* rename.  flags: RENAME_NOREPLACE, RENAME_EXCHANGE; other flags are refused. *)
Record rflags := mkRf { rf_noreplace : bool; rf_exchange : bool; rf_other : bool }.
(* check_stage_rename_at, lib/namei.c:1972-1991 *)
Definition stage_rename_at (d : Z) (n : name) (new_de : bool) : M (option (Z * inode)) :=
  check_dir_waccess d;;
  (fun o s => match stage_by_name d n o s with
              | Ok p o' s' => (may_fail;; ret (Some p)) o' s'
              | Er ENOENT o' s' => if new_de then Ok None o' s' else Er ENOENT o' s'
              | Er e o' s' => Er e o' s'
              | Abort => Abort
              end).
(* check_rename_exchange, lib/namei.c:1916-1938 *)
Definition check_rename_exchange (d d' : Z) (k : Z) (i : inode) (k' : Z) (i' : inode) : M unit :=
  may_fail;;
  if negb (k =? k') && negb (Bool.eqb (i_dir i) (i_dir i'))
  then if i_dir i' then (x <- stage d'; check_nomlink x) else (x <- stage d; check_nomlink x)
  else ret tt.
(* check_rename, lib/namei.c:1940-1970 *)
Definition check_rename (d d' : Z) (k : Z) (i : inode) (old : option (Z * inode)) (f : rflags) : M unit :=
  require (negb (rf_other f)) EINVAL;;
  match old with
  | None => require (negb (rf_exchange f)) ENOENT
  | Some (k', i') =>
    require (negb (rf_noreplace f)) EEXIST;;
    if rf_exchange f then check_rename_exchange d d' k i k' i'
    else if i_dir i' && negb (k' =? k) then check_rmdir_child k' i' else ret tt
  end.
(* do_rename_move, lib/namei.c:1776-1796 *)
Definition rename_move (d : Z) (n : name) (k : Z) (d' : Z) (n' : name) : M unit :=
  check_add_dentry d';; remove_dentry d n;; do_add_dentry d' n' k false.
(* do_rename_replace, lib/namei.c:1817-1837 *)
Definition rename_replace (d : Z) (n : name) (k : Z) (d' : Z) (n' : name) (k' : Z) : M unit :=
  remove_dentry d' n';; try_prune k';; remove_dentry d n;; do_add_dentry d' n' k false.
(* do_rename_exchange, lib/namei.c:1852-1877 *)
Definition rename_exchange (d : Z) (n : name) (k : Z) (d' : Z) (n' : name) (k' : Z) : M unit :=
  remove_dentry d n;; remove_dentry d' n';; do_add_dentry d' n' k false;; do_add_dentry d n k' false.
(* rename_specific, lib/namei.c:1895-1914; rename_unlink 1811-1815 *)
Definition rename_specific (d : Z) (n : name) (k : Z) (d' : Z) (n' : name) (old : option (Z * inode)) (f : rflags) : M unit :=
  match old with
  | None => rename_move d n k d' n'
  | Some (k', _) =>
    if k =? k' then remove_dentry d n;; try_prune k
    else if rf_exchange f then rename_exchange d n k d' n' k'
    else rename_replace d n k d' n' k'
  end.
(* do_rename, lib/namei.c:2007-2040 *)
Definition rename (d : Z) (n : name) (d' : Z) (n' : name) (f : rflags) : M unit :=
  cur <- stage_rename_at d n false;
  old <- stage_rename_at d' n' true;
  match cur with
  | None => fail ENOENT
  | Some (k, i) => check_rename d d' k i old f;; rename_specific d n k d' n' old f
  end.

(* the root directory as made by mkfs: silofs_ii_fixup_as_rootdir, lib/inode.c:478-486 *)
Definition ns_root : ns := [(INO_ROOT, mkIno true 2 INO_ROOT 0 false [] false)].

Inductive nop :=
| NCreate (d : Z) (n : name) (k : Z) (opened : bool)
| NMknod (d : Z) (n : name) (k : Z)
| NSymlink (d : Z) (n : name) (k : Z)
| NMkdir (d : Z) (n : name) (k : Z)
| NLink (d : Z) (n : name) (k : Z)
| NUnlink (d : Z) (n : name)
| NRmdir (d : Z) (n : name)
| NRename (d : Z) (n : name) (d' : Z) (n' : name) (f : rflags)
| NOpen (k : Z)
| NRelease (k : Z)
| NForget (k : Z).
Definition run_op (op : nop) : M unit :=
  match op with
  | NCreate d n k b => create d n k b
  | NMknod d n k => mknod d n k
  | NSymlink d n k => symlink d n k
  | NMkdir d n k => mkdir d n k
  | NLink d n k => link d n k
  | NUnlink d n => unlink d n
  | NRmdir d n => rmdir d n
  | NRename d n d' n' f => rename d n d' n' f
  | NOpen k => open k
  | NRelease k => release k
  | NForget k => forget k
  end.
