(* Permissions and inode attributes: lib/namei.c (access, open, sticky directories), lib/inode.c
   (chmod, chown, utimens, attribute update), the attribute side of file I/O (lib/file.c) and
   the combined setattr request (lib/fuseq.c).  Numbers are unbounded; a mode is a bit set. *)
From Verif Require Import Base.

(* <sys/stat.h>, <unistd.h>, <fcntl.h> on Linux *)
Definition S_ISUID := 2048. Definition S_ISGID := 1024. Definition S_ISVTX := 512.
Definition S_IRUSR := 256. Definition S_IWUSR := 128. Definition S_IXUSR := 64.
Definition S_IRGRP := 32. Definition S_IWGRP := 16. Definition S_IXGRP := 8.
Definition S_IROTH := 4. Definition S_IWOTH := 2. Definition S_IXOTH := 1.
Definition S_IFMT := 61440. Definition S_IFDIR := 16384. Definition S_IFREG := 32768.
Definition S_IFIFO := 4096. Definition S_IFLNK := 40960. Definition S_IFSOCK := 49152.
Definition R_OK := 4. Definition W_OK := 2. Definition X_OK := 1.
Definition O_WRONLY := 1. Definition O_RDWR := 2. Definition O_CREAT := 64. Definition O_EXCL := 128.
Definition O_TRUNC := 512. Definition O_APPEND := 1024. Definition O_DIRECT := 16384. Definition O_DIRECTORY := 65536.
Definition UTIME_NOW := 1073741823. Definition UTIME_OMIT := 1073741822.
Definition ID_NULL := 2 ^ 32 - 1. (* (uid_t)-1 *)

Notation ts := (Z * Z)%type. (* struct timespec: seconds, nanoseconds *)
Record cred := mkCred { c_uid : Z; c_gid : Z; c_umask : Z }.
(* struct silofs_creds, include/silofs/types.h:101-105 *)
Record creds := mkCreds { host : cred; fsc : cred; c_now : ts }.

(* the fields of struct silofs_inode, with i_atime_lazy of struct silofs_inode_info *)
Record attrs := mkAttrs {
  a_ino : Z; a_parent : Z; a_uid : Z; a_gid : Z; a_mode : Z; a_flags : Z; a_size : Z; a_span : Z; a_blocks : Z;
  a_nlink : Z; a_rdev : Z; a_gen : Z; a_rev : Z; a_btime : ts; a_atime : ts; a_mtime : ts; a_ctime : ts; a_lazy : ts }.

(* a & b used as a truth value *)
Definition any (a b : Z) : bool := negb (Z.land a b =? 0).
Definition fmt (m : Z) : Z := Z.land m S_IFMT.
Definition isreg (a : attrs) : bool := fmt (a_mode a) =? S_IFREG.
Definition isdir (a : attrs) : bool := fmt (a_mode a) =? S_IFDIR.
Definition isfifo (a : attrs) : bool := fmt (a_mode a) =? S_IFIFO.

Inductive err := EACCES | EPERM | EISDIR | ENOTDIR | EINVAL | EEXIST | EOPNOTSUPP | EMFILE | EROFS | EFAIL.
Inductive res (A : Type) := Ok (a : A) | Er (e : err).
Arguments Ok {A}. Arguments Er {A}.

(* do_access, lib/namei.c:282-339 *)
Definition do_access (c : creds) (a : attrs) (mask : Z) : res unit :=
  let uid := c_uid (fsc c) in
  let m := a_mode a in
  let bit b r := if any m b then r else 0 in
  let rwx :=
    if uid =? 0 then
      Z.lor (Z.lor R_OK W_OK)
            (if isreg a then (if any m (Z.lor S_IXUSR (Z.lor S_IXGRP S_IXOTH)) then X_OK else 0) else X_OK)
    else if uid =? a_uid a then Z.lor (bit S_IRUSR R_OK) (Z.lor (bit S_IWUSR W_OK) (bit S_IXUSR X_OK))
    else if c_gid (fsc c) =? a_gid a then Z.lor (bit S_IRGRP R_OK) (Z.lor (bit S_IWGRP W_OK) (bit S_IXGRP X_OK))
    else Z.lor (bit S_IROTH R_OK) (Z.lor (bit S_IWOTH W_OK) (bit S_IXOTH X_OK)) in
  if Z.land rwx mask =? mask then Ok tt else Er EACCES.

(* o_flags_to_rwx, lib/namei.c:782-800 *)
Definition o_flags_to_rwx (f : Z) : Z :=
  let m := if Z.land f O_RDWR =? O_RDWR then Z.lor R_OK W_OK
           else if Z.land f O_WRONLY =? O_WRONLY then W_OK else R_OK in
  let m := if any f O_TRUNC then Z.lor m W_OK else m in
  if any f O_APPEND then Z.lor m W_OK else m.
(* check_open_flags, lib/namei.c:802-818 *)
Definition check_open_flags (a : attrs) (f : Z) : res unit :=
  if negb (isdir a) && any f O_DIRECTORY then Er EISDIR
  else if any f (Z.lor O_CREAT O_EXCL) then Er EEXIST
  else if isreg a && any f O_TRUNC && negb (any f (Z.lor O_WRONLY O_RDWR)) then Er EACCES
  else if isdir a && any f O_DIRECT then Er EOPNOTSUPP
  else Ok tt.
(* check_open, lib/namei.c:820-844, with check_reg_or_fifo 108-117; full: check_open_limit 119-132 *)
Definition check_open (c : creds) (a : attrs) (f : Z) (full : bool) : res unit :=
  if isdir a then Er EISDIR
  else if negb (isreg a) && negb (isfifo a) then Er EINVAL
  else match check_open_flags a f with
       | Er e => Er e
       | Ok _ => match do_access c a (o_flags_to_rwx f) with
                 | Er e => Er e
                 | Ok _ => if full then Er EMFILE else Ok tt
                 end
       end.
(* check_opendir, lib/namei.c:1443-1465 *)
Definition check_opendir (c : creds) (a : attrs) (f : Z) (full : bool) : res unit :=
  if negb (isdir a) then Er ENOTDIR
  else match do_access c a R_OK with
       | Er e => Er e
       | Ok _ => if full then Er EMFILE else if isdir a && any f O_DIRECT then Er EOPNOTSUPP else Ok tt
       end.
(* the access part of check_lookup, lib/namei.c:411-426 *)
Definition check_lookup (c : creds) (d : attrs) : res unit :=
  if negb (isdir d) then Er ENOTDIR else do_access c d X_OK.
(* check_dir_waccess, lib/namei.c:375-393; ro: the file system is mounted read-only *)
Definition check_dir_waccess (c : creds) (ro : bool) (d : attrs) : res unit :=
  if ro then Er EROFS else if negb (isdir d) then Er ENOTDIR else do_access c d W_OK.
(* isowner, lib/namei.c:78-84; has_cap_fowner 86-91 with silofs_user_cap_fowner, lib/inode.c:34-38 *)
Definition isowner (c : creds) (a : attrs) : bool := c_uid (fsc c) =? a_uid a.
Definition host_root (c : creds) : bool := c_uid (host c) =? 0.
(* check_sticky, lib/namei.c:156-173 *)
Definition check_sticky (c : creds) (d a : attrs) : res unit :=
  if negb (any (a_mode d) S_ISVTX) then Ok tt
  else if isowner c d then Ok tt
  else if isowner c a then Ok tt
  else if host_root c then Ok tt
  else Er EPERM.
(* the permission side of unlink (check_prepare_unlink, lib/namei.c:1085-1111) *)
Definition may_unlink (c : creds) (ro : bool) (d a : attrs) : res unit :=
  match check_dir_waccess c ro d with
  | Er e => Er e
  | Ok _ => match check_sticky c d a with Er e => Er e | Ok _ => if isdir a then Er EISDIR else Ok tt end
  end.
(* the permission side of rmdir (check_prepare_rmdir, lib/namei.c:1293-1315, check_rmdir_child 1266-1291)
   of an empty directory that is not the root *)
Definition may_rmdir (c : creds) (ro : bool) (d a : attrs) : res unit :=
  match check_dir_waccess c ro d with
  | Er e => Er e
  | Ok _ => if isdir a then check_sticky c d a else Er ENOTDIR
  end.
(* check_stage_rename_at, lib/namei.c:1972-1991 *)
Definition may_rename_at (c : creds) (ro : bool) (d : attrs) (a : option attrs) : res unit :=
  match check_dir_waccess c ro d with
  | Er e => Er e
  | Ok _ => match a with Some a => check_sticky c d a | None => Ok tt end
  end.
(* do_rename, lib/namei.c:2007-2040, without flags: source d/a, target d'/a' (an empty directory or
   no directory), two different inodes; check_rename 1940-1970 checks the replaced directory
   against the source directory *)
Definition may_rename (c : creds) (ro : bool) (d a d' : attrs) (a' : option attrs) : res unit :=
  match may_rename_at c ro d (Some a) with
  | Er e => Er e
  | Ok _ => match may_rename_at c ro d' a' with
            | Er e => Er e
            | Ok _ => match a' with
                      | Some x => if isdir x then check_sticky c d x else Ok tt
                      | None => Ok tt
                      end
            end
  end.

(* enum silofs_iattr_flags, include/silofs/types.h:58-78 *)
Definition IA_PARENT := 1. Definition IA_LAZY := 2. Definition IA_SIZE := 4. Definition IA_SPAN := 8.
Definition IA_NLINK := 16. Definition IA_BLOCKS := 32. Definition IA_MODE := 64. Definition IA_UID := 128.
Definition IA_GID := 256. Definition IA_KILL_SUID := 512. Definition IA_KILL_SGID := 1024.
Definition IA_BTIME := 2048. Definition IA_ATIME := 4096. Definition IA_MTIME := 8192. Definition IA_CTIME := 16384.
Definition IA_MCTIME := 24576. Definition IA_TIMES := 30720.
(* struct silofs_iattr *)
Record iattr := mkIa { ia_flags : Z; ia_parent : Z; ia_size : Z; ia_span : Z; ia_nlink : Z; ia_blocks : Z;
                       ia_mode : Z; ia_uid : Z; ia_gid : Z; ia_bt : ts; ia_at : ts; ia_mt : ts; ia_ct : ts }.
(* struct silofs_itimes *)
Record itimes := mkIt { t_b : ts; t_a : ts; t_m : ts; t_c : ts }.
Definition NOW : ts := (0, UTIME_NOW).
Definition OMIT : ts := (0, UTIME_OMIT).
Definition all_now : itimes := mkIt NOW NOW NOW NOW.
(* iattr_setup_with and iattr_setup_now, lib/inode.c:347-358 *)
Definition iattr_with (fl : Z) (t : itimes) : iattr := mkIa fl 0 0 0 0 0 0 0 0 (t_b t) (t_a t) (t_m t) (t_c t).

(* timespec_of, lib/inode.c:1219-1230; keep: setting a time to NULL changes nothing (cpu_to_ts 87-93) *)
Definition pick (t : ts) (c : creds) (old : ts) : ts :=
  if snd t =? UTIME_NOW then c_now c else if snd t =? UTIME_OMIT then old else t.
(* kill_suid_sgid, lib/inode.c:726-742 *)
Definition kill_suid_sgid (fl m : Z) : Z :=
  let m1 := if any fl IA_KILL_SUID && any m S_ISUID then Z.ldiff m S_ISUID else m in
  if any fl IA_KILL_SGID && (Z.land m (Z.lor S_ISGID S_IXGRP) =? Z.lor S_ISGID S_IXGRP) then Z.ldiff m1 S_ISGID else m1.
(* ii_update_inode_attr, lib/inode.c:1240-1311 *)
Definition update_attr (a : attrs) (c : creds) (ia : iattr) : attrs :=
  let fl := ia_flags ia in
  let sel b (x y : Z) := if any fl b then x else y in
  let selt b (x y : ts) := if any fl b then x else y in
  let lazy := if any fl (Z.lor IA_LAZY IA_ATIME) then pick (ia_at ia) c (a_lazy a) else a_lazy a in
  let fl1 := Z.ldiff (Z.ldiff fl IA_ATIME) IA_LAZY in
  if fl1 =? 0 then
    mkAttrs (a_ino a) (a_parent a) (a_uid a) (a_gid a) (a_mode a) (a_flags a) (a_size a) (a_span a) (a_blocks a)
            (a_nlink a) (a_rdev a) (a_gen a) (a_rev a) (a_btime a) (a_atime a) (a_mtime a) (a_ctime a) lazy
  else
    let mode := sel IA_MODE (ia_mode ia) (a_mode a) in
    mkAttrs (a_ino a) (sel IA_PARENT (ia_parent ia) (a_parent a)) (sel IA_UID (ia_uid ia) (a_uid a))
            (sel IA_GID (ia_gid ia) (a_gid a)) (kill_suid_sgid fl1 mode)
            (a_flags a) (sel IA_SIZE (ia_size ia) (a_size a)) (sel IA_SPAN (ia_span ia) (a_span a))
            (sel IA_BLOCKS (ia_blocks ia) (a_blocks a)) (sel IA_NLINK (ia_nlink ia) (a_nlink a)) (a_rdev a) (a_gen a)
            (a_rev a + 1)
            (selt IA_BTIME (pick (ia_bt ia) c (a_btime a)) (a_btime a))
            (if any fl1 IA_TIMES then lazy else a_atime a)
            (selt IA_MTIME (pick (ia_mt ia) c (a_mtime a)) (a_mtime a))
            (selt IA_CTIME (pick (ia_ct ia) c (a_ctime a)) (a_ctime a))
            lazy.
(* silofs_ii_update_itimes, lib/inode.c:1323-1332 *)
Definition update_itimes (a : attrs) (c : creds) (fl : Z) : attrs :=
  update_attr a c (iattr_with (Z.land fl IA_TIMES) all_now).

(* check_chmod, lib/inode.c:751-765, with itype_of 677-680 and has_itype 688-693 *)
Definition check_chmod (c : creds) (a : attrs) (mode : Z) : res unit :=
  if (fmt mode =? 0) || (fmt (a_mode a) =? fmt mode)
  then if isowner c a then Ok tt else if host_root c then Ok tt else Er EPERM
  else Er EPERM.
(* check_xaccess_parent, lib/inode.c:701-724; parent: the parent directory as staged, None when staging fails *)
Definition INO_ROOT := 1.
Definition check_xaccess_parent (c : creds) (a : attrs) (parent : option attrs) : res unit :=
  if negb (isdir a) || (a_ino a =? INO_ROOT) then Ok tt
  else match parent with
       | None => Er EFAIL
       | Some p => if isdir p then do_access c p X_OK else Er EFAIL
       end.
(* do_chmod, lib/inode.c:801-820, with new_mode_of 744-749 and update_post_chmod 786-799 *)
Definition do_chmod (c : creds) (a : attrs) (parent : option attrs) (mode : Z) (t : itimes) : res attrs :=
  match check_chmod c a mode with
  | Er e => Er e
  | Ok _ =>
    match check_xaccess_parent c a parent with
    | Er e => Er e
    | Ok _ =>
      let kill := if negb (a_gid a =? c_gid (fsc c)) && negb (c_uid (fsc c) =? 0) then IA_KILL_SGID else 0 in
      let m := Z.lor (Z.land (a_mode a) S_IFMT) (Z.ldiff mode S_IFMT) in
      let ia := iattr_with (Z.lor (Z.lor IA_MODE IA_CTIME) kill) t in
      Ok (update_attr a c (mkIa (ia_flags ia) 0 0 0 0 0 m 0 0 (t_b t) (t_a t) (t_m t) (t_c t)))
    end
  end.
(* check_chown, lib/inode.c:863-876, with check_chown_uid 840-847, check_chown_gid 849-861,
   check_cap_chown 833-838 *)
Definition check_chown (c : creds) (a : attrs) (uid gid : Z) : res unit :=
  let cap := if host_root c then Ok tt else Er EPERM in
  match (if uid =? ID_NULL then Ok tt else if uid =? a_uid a then Ok tt else cap) with
  | Er e => Er e
  | Ok _ => if gid =? ID_NULL then Ok tt
            else if gid =? a_gid a then Ok tt
            else if isowner c a then Ok tt
            else cap
  end.
(* do_chown, lib/inode.c:893-920, with update_post_chown 878-891 *)
Definition do_chown (c : creds) (a : attrs) (uid gid : Z) (t : itimes) : res attrs :=
  let cu := negb (uid =? ID_NULL) in
  let cg := negb (gid =? ID_NULL) in
  if negb cu && negb cg then Ok a
  else match check_chown c a uid gid with
       | Er e => Er e
       | Ok _ =>
         let kill := if any (a_mode a) (Z.lor S_IXUSR (Z.lor S_IXGRP S_IXOTH)) then Z.lor IA_KILL_SUID IA_KILL_SGID else 0 in
         let fl := Z.lor (Z.lor (if cu then IA_UID else 0) (if cg then IA_GID else 0)) (Z.lor IA_CTIME kill) in
         Ok (update_attr a c (mkIa fl 0 0 0 0 0 0 uid gid (t_b t) (t_a t) (t_m t) (t_c t)))
       end.
(* do_utimens, lib/inode.c:962-990, with check_utimens 944-960 and update_times_attr 767-778 *)
Definition do_utimens (c : creds) (a : attrs) (t : itimes) : res attrs :=
  match (if isowner c a then Ok tt else do_access c a W_OK) with
  | Er e => Er e
  | Ok _ =>
    let step a x fl := if snd x =? UTIME_NOW then update_itimes a c fl
                       else if snd x =? UTIME_OMIT then a
                       else update_attr a c (iattr_with fl t) in
    let a := step a (t_a t) IA_ATIME in
    let a := step a (t_m t) IA_MTIME in
    Ok (if snd (t_c t) =? UTIME_OMIT then a else update_attr a c (iattr_with IA_CTIME t))
  end.

(* filc_update_post_io, lib/file.c:1359-1405.  off: the position reached, beg: where the request
   began, end_: where it was to end; keep: FALLOC_FL_KEEP_SIZE *)
Inductive iop := IRead | IWrite | ICopy | IFalloc (keep : bool) | ITrunc.
Definition post_io (a : attrs) (c : creds) (op : iop) (beg off end_ : Z) (kill : bool) : attrs :=
  let k := if kill then Z.lor IA_KILL_SUID IA_KILL_SGID else 0 in
  let ia fl size span := mkIa fl 0 size span 0 0 0 0 0 NOW NOW NOW NOW in
  let upd fl size span := update_attr a c (ia fl size span) in
  match op with
  | IRead => upd (Z.lor IA_ATIME IA_LAZY) 0 0
  | IWrite | ICopy =>
    upd (Z.lor (Z.lor IA_SIZE IA_SPAN) (if beg <? off then Z.lor IA_MCTIME k else 0)) (Z.max off (a_size a)) (Z.max off (a_span a))
  | IFalloc keep =>
    upd (Z.lor (Z.lor IA_MCTIME IA_SPAN) (if keep then 0 else IA_SIZE)) (Z.max end_ (a_size a)) (Z.max end_ (a_span a))
  | ITrunc =>
    upd (Z.lor (Z.lor IA_SIZE IA_SPAN) (if a_size a =? beg then 0 else Z.lor IA_MCTIME k)) beg beg
  end.
(* the attribute side of the requests that change data.  n: bytes written before the end or the
   failure; ok: whether all went well.  filc_write_iter, lib/file.c:2841-2860 *)
Definition after_write (a : attrs) (c : creds) (beg n : Z) (ok : bool) : attrs :=
  post_io a c IWrite beg (beg + n) (beg + n) (ok && (0 <? n)).
(* filc_copy_range, lib/file.c:4649-4673 *)
Definition after_copy (a : attrs) (c : creds) (beg n : Z) : attrs := post_io a c ICopy beg (beg + n) (beg + n) false.
(* filc_fallocate, lib/file.c:3811-3829 *)
Definition after_falloc (a : attrs) (c : creds) (keep : bool) (beg len : Z) : attrs :=
  post_io a c (IFalloc keep) beg beg (beg + len) true.
(* filc_truncate, lib/file.c:3427-3449; the only checks are of the kind of file and of the range
   (filc_check_file_io 1289-1343); fails: freeing the blocks fails *)
Definition do_truncate (c : creds) (a : attrs) (size : Z) (fails : bool) : res attrs :=
  if isdir a then Er EISDIR
  else if negb (isreg a) then Er EINVAL
  else if (size <? 0) || fails then Er EFAIL
  else Ok (post_io a c ITrunc size size size true).

(* the setattr request: do_setattr, lib/fuseq.c:1909-1945, with utimens_of 1885-1907 *)
Record sreq := mkReq { q_mode : option Z; q_uid : option Z; q_gid : option Z; q_size : option Z;
                       q_atime : option ts; q_mtime : option ts; q_ctime : option ts; q_anow : bool; q_mnow : bool }.
Definition some {A} (x : option A) : bool := match x with Some _ => true | None => false end.
Definition req_times (q : sreq) : itimes :=
  let or_omit x := match x with Some t => t | None => OMIT end in
  mkIt (0, 0) (or_omit (q_atime q)) (or_omit (q_mtime q))
       (match q_ctime q with
        | Some t => t
        | None => if q_anow q || q_mnow q || some (q_atime q) || some (q_mtime q) || some (q_mode q) || some (q_uid q)
                     || some (q_gid q) || some (q_size q)
                  then NOW else OMIT
        end).
(* op_setattr, lib/fuseq.c:5013-5060.  The result carries the attributes even when a step fails:
   earlier steps stay done.  tfail: truncation fails. *)
Definition seq (p : attrs * option err) (on : bool) (f : attrs -> res attrs) : attrs * option err :=
  match snd p with
  | Some e => p
  | None => if on then match f (fst p) with Ok a => (a, None) | Er e => (fst p, Some e) end else p
  end.
Definition op_setattr (c : creds) (a : attrs) (parent : option attrs) (q : sreq) (tfail : bool) : attrs * option err :=
  let t := req_times q in
  let id x := match x with Some v => v | None => ID_NULL end in
  let p := (a, None) in
  let p := seq p (q_anow q || q_mnow q) (fun a => do_utimens c a t) in
  let p := seq p (some (q_mode q)) (fun a => do_chmod c a parent (match q_mode q with Some m => m | None => 0 end) t) in
  let p := seq p (some (q_uid q) || some (q_gid q)) (fun a => do_chown c a (id (q_uid q)) (id (q_gid q)) t) in
  let p := seq p (some (q_size q)) (fun a => do_truncate c a (match q_size q with Some z => z | None => 0 end) tfail) in
  seq p ((some (q_atime q) || some (q_mtime q) || some (q_ctime q)) &&
         negb (some (q_mode q) || some (q_uid q) || some (q_gid q) || some (q_size q)))
      (fun a => do_utimens c a t).

(* a new inode: silofs_ii_setup_by, lib/inode.c:661-667, inode_setup_common 619-634, silofs_setup_dir,
   lib/dir.c:1410-1424; spawn_dir_inode and spawn_reg_inode, lib/namei.c:228-248.  parent: None for the root *)
Definition DIR_EMPTY_SIZE := 1024.
Definition new_inode (c : creds) (ino : Z) (parent : option attrs) (mode iflags rdev : Z) : attrs :=
  let m := Z.ldiff mode (c_umask (fsc c)) in
  let dir := fmt m =? S_IFDIR in
  let pmode := match parent with Some p => a_mode p | None => 0 end in
  let a := mkAttrs ino (match parent with Some p => a_ino p | None => 0 end) (c_uid (fsc c)) (c_gid (fsc c))
                   (if dir then Z.lor m (Z.land pmode S_ISGID) else m) iflags (if dir then DIR_EMPTY_SIZE else 0) 0 0
                   (if dir then 1 else 0) rdev 0 0 (0, 0) (0, 0) (0, 0) (0, 0) (0, 0) in
  update_itimes a c IA_TIMES.

(* the flags of a directory: silofs_do_tune, lib/namei.c:2488-2497 (do_tune 2475-2486); ii_set_iflags,
   lib/inode.c:488-499; silofs_ii_update_iflags 501-514 *)
Definition INODEF_ROOTD := 1. Definition INODEF_FTYPE2 := 2.
Definition do_tune (c : creds) (ro : bool) (d : attrs) (want dont : Z) : res Z :=
  match check_dir_waccess c ro d with
  | Er e => Er e
  | Ok _ =>
    if negb (Z.lor want INODEF_FTYPE2 =? INODEF_FTYPE2) then Er EINVAL
    else if negb (Z.lor dont INODEF_FTYPE2 =? INODEF_FTYPE2) then Er EINVAL
    else if any want dont then Er EINVAL
    else let fl := a_flags d in
         let fl := if want =? 0 then fl else Z.lor fl want in
         let fl := if dont =? 0 then fl else Z.ldiff fl dont in
         Ok (Z.land fl INODEF_FTYPE2)
  end.

(* what stat reports: silofs_ii_stat_of, lib/inode.c:1131-1154 *)
Record stat := mkStat { st_ino : Z; st_mode : Z; st_nlink : Z; st_uid : Z; st_gid : Z; st_rdev : Z; st_size : Z;
                        st_blocks : Z; st_atime : ts; st_mtime : ts; st_ctime : ts; st_btime : ts; st_gen : Z }.
Definition stat_of (a : attrs) : stat :=
  mkStat (a_ino a) (a_mode a) (a_nlink a) (a_uid a) (a_gid a) (a_rdev a) (a_size a) (a_blocks a * 1024 / 512)
         (a_lazy a) (a_mtime a) (a_ctime a) (a_btime a) (a_gen a).
