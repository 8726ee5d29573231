(* Requests: lib/opers.c, and the way from FUSE to it in lib/fuseq.c (654-667, 1909-1945,
   2793-3030, 3119-3262, 3316-3445, 5011-5060, 5290-5450).

   Simplifications:
   - what staging, flushing and the functions silofs_do_* of other files do is a parameter
     (inner): it may do anything to the state of the file system, fail with any error, tell
     the owner of an inode, and leave an inode in the loose-queue of the task;
   - a helper that stages (op_stage_opt_inode, op_stage_mut_inode2 and so on) is one such call,
     and so is op_try_flush2;
   - op_count and op_time, which every request updates, are not in the state;
   - out_st->gen is not 0 once a request filled it in; a batch of forgets is one of its parts,
     and the errors of forgets, which are not reported, are;
   - errors are numbers below 0; NULL for the super-block is e_online = false. *)
From Verif Require Import Base IdsmapModel.

(* fse_owner, fse_ctl_flags, idsmap *)
Record env := mkEnv { e_online : bool; e_owner : Z; e_admin : bool; e_other : bool; e_ids : idsmap }.
(* task: t_kwrite, t_oper.op_pid, host_cred *)
Record req := mkReq { q_kwrite : bool; q_pid : Z; q_uid : Z; q_gid : Z }.
Definition EPERM : Z := -1001.
Definition EIO : Z := -1005.
Definition ENOSYS : Z := -1038.

(* op_is_kernel: opers.c:159-174 *)
Definition is_kernel (q : req) : bool :=
  if q_kwrite q then true else if negb (q_pid q =? 0) then false else (q_uid q =? 0) && (q_gid q =? 0).
(* op_is_admin: opers.c:176-179 *)
Definition is_admin (e : env) (q : req) : bool := negb (e_online e) || is_kernel q.
(* op_authorize: opers.c:201-219, with op_is_fsowner 181-186, op_cap_sys_admin 188-194 (inode.c:40-44),
   op_allow_other 196-199 *)
Definition authorize (e : env) (q : req) : bool :=
  if negb (e_online e) then true else if is_kernel q then true else if q_uid q =? e_owner e then true
  else if e_admin e && (q_uid q =? 0) then true else e_other e.
(* op_map_creds: opers.c:231-247; None is EPERM *)
Definition map_creds (e : env) (q : req) : option (Z * Z) :=
  if is_admin e q then Some (q_uid q, q_gid q) else map_uidgid (e_ids e) (q_uid q) (q_gid q).
(* op_rmap_stat: opers.c:249-262; ids that the map does not have stay (idsmap.c:442-457, 708-728) *)
Definition rmap_stat (e : env) (ids : Z * Z) : Z * Z :=
  let m := e_ids e in
  (snd (res1 resolve_ftoh (im_u m) (im_allow m) (fst ids)), snd (res1 resolve_ftoh (im_g m) (im_allow m) (snd ids))).

Inductive op :=
| Forget | Statfs | Lookup | Getattr | Access | Mkdir | Rmdir | Symlink | Readlink | Unlink | Link | Opendir
| Releasedir | Readdir | Readdirplus | Fsyncdir | Chmod | Chown | Utimens | Truncate | Create | Open | Mknod
| Release | Flush | Fsync | Rename | Read | ReadIter | Write | WriteIter | Fallocate | Lseek | CopyRange
| Setxattr | Getxattr | Listxattr | Removexattr | Statx | Fiemap | Syncfs | Query | Clone | Tune
| Maintain | Inspect | Unrefs.
(* the calls in a request: the last five are SDo: silofs_do_*; SAttr: silofs_do_getattr *)
Inductive step :=
| SAuth | SMap | SMapIds | SRmap | SCache | SCur | SMut | SMut2 | SOpt | SOpenable | SName | SName2 | SSym | SFlush | SFlush2 | SDo | SAttr | SLoose.

(* opers.c:331-1676; silofs_fs_rdwr_post (1616-1624), which takes no lock, is left out *)
Definition steps (o : op) : list step :=
  match o with
  | Forget => [SAuth; SMap; SCache; SDo]                                      (* 331-354 *)
  | Statfs => [SAuth; SMap; SCur; SDo]                                        (* 356-378 *)
  | Lookup => [SAuth; SMap; SCur; SName; SDo; SAttr; SRmap]                   (* 380-413 *)
  | Getattr => [SAuth; SMap; SCur; SAttr; SRmap]                              (* 415-440 *)
  | Access => [SAuth; SMap; SCur; SDo]                                        (* 442-463 *)
  | Mkdir => [SAuth; SMap; SMut; SName; SFlush; SDo; SAttr; SRmap]            (* 465-501 *)
  | Rmdir => [SAuth; SMap; SMut; SName; SFlush; SDo]                          (* 503-531 *)
  | Symlink => [SAuth; SMap; SMut; SName; SSym; SFlush; SDo; SAttr; SRmap]    (* 533-573 *)
  | Readlink => [SAuth; SMap; SCur; SDo]                                      (* 575-597 *)
  | Unlink => [SAuth; SMap; SMut; SName; SFlush; SDo]                         (* 599-627 *)
  | Link => [SAuth; SMap; SMut; SMut; SName; SFlush; SDo; SAttr; SRmap]       (* 629-668 *)
  | Opendir => [SAuth; SMap; SCur; SDo]                                       (* 670-691 *)
  | Releasedir => [SAuth; SMap; SOpt; SDo]                                    (* 693-715 *)
  | Readdir => [SAuth; SMap; SCur; SDo]                                       (* 717-739 *)
  | Readdirplus => [SAuth; SMap; SCur; SDo]                                   (* 768-796 *)
  | Fsyncdir => [SAuth; SMap; SOpt; SDo]                                      (* 798-819 *)
  | Chmod => [SAuth; SMap; SMut; SFlush; SDo; SAttr; SRmap]                   (* 821-854 *)
  | Chown => [SAuth; SMap; SMapIds; SMut; SFlush; SDo; SAttr; SRmap]          (* 856-892 *)
  | Utimens => [SAuth; SMap; SMut; SDo; SAttr; SRmap]                         (* 894-924 *)
  | Truncate => [SAuth; SMap; SMut; SFlush; SDo; SAttr; SRmap]                (* 926-957 *)
  | Create => [SAuth; SMap; SMut; SName; SFlush; SDo; SAttr; SRmap]           (* 959-997 *)
  | Open => [SAuth; SMap; SOpenable; SDo]                                     (* 999-1020 *)
  | Mknod => [SAuth; SMap; SMut; SName; SFlush; SDo; SAttr; SRmap]            (* 1022-1058 *)
  | Release => [SAuth; SMap; SOpt; SDo]                                       (* 1060-1085 *)
  | Flush => [SAuth; SMap; SCur; SDo]                                         (* 1087-1108 *)
  | Fsync => [SAuth; SMap; SOpt; SDo]                                         (* 1110-1131 *)
  | Rename => [SAuth; SMap; SMut2; SName; SName2; SFlush2; SDo]               (* 1133-1167 *)
  | Read | ReadIter => [SAuth; SMap; SCur; SDo]                               (* 1169-1215 *)
  | Write | WriteIter => [SAuth; SMap; SMut; SFlush; SDo]                     (* 1217-1269 *)
  | Fallocate => [SAuth; SMap; SMut; SFlush; SDo]                             (* 1271-1296 *)
  | Lseek => [SAuth; SMap; SCur; SDo]                                         (* 1298-1320 *)
  | CopyRange => [SAuth; SMap; SMut2; SFlush2; SDo]                           (* 1322-1350 *)
  | Setxattr => [SAuth; SMap; SMut; SFlush; SName; SDo]                       (* 1352-1383 *)
  | Getxattr => [SAuth; SMap; SCur; SName; SDo]                               (* 1385-1411 *)
  | Listxattr => [SAuth; SMap; SCur; SDo]                                     (* 1413-1435 *)
  | Removexattr => [SAuth; SMap; SMut; SName; SFlush; SDo]                    (* 1437-1466 *)
  | Statx => [SAuth; SMap; SCur; SAttr; SRmap]                                (* 1468-1493 *)
  | Fiemap => [SAuth; SMap; SCur; SDo]                                        (* 1495-1516 *)
  | Syncfs => [SAuth; SMap; SMut; SDo]                                        (* 1518-1539 *)
  | Query => [SAuth; SMap; SCur; SDo]                                         (* 1541-1564 *)
  | Clone => [SAuth; SMap; SCur; SDo]                                         (* 1566-1588 *)
  | Tune => [SAuth; SMap; SMut; SDo]                                          (* 1590-1612 *)
  | Maintain => [SDo]                                                         (* 1626-1637 *)
  | Inspect => [SAuth; SMap; SDo]                                             (* 1639-1657 *)
  | Unrefs => [SAuth; SMap; SDo]                                              (* 1659-1676 *)
  end.

Inductive event := ELock | EUnlock | ECall (o : op) (s : step) (cred ids : Z * Z) (err : Z).
Record inner_ret (St : Type) := mkRet { i_st : St; i_err : Z; i_ids : Z * Z; i_loose : bool }.
Arguments mkRet {St}. Arguments i_st {St}. Arguments i_err {St}. Arguments i_ids {St}. Arguments i_loose {St}.

Section Run.
Variable St : Type.
(* op, call, fs_cred, ids of a chown *)
Variable inner : op -> step -> Z * Z -> Z * Z -> St -> inner_ret St.

Record exec := mkExec { x_st : St; x_log : list event; x_cred : Z * Z; x_ids : Z * Z; x_out : option (Z * Z); x_loose : bool; x_err : Z }.
Definition failed (x : exec) (err : Z) : exec := mkExec (x_st x) (x_log x) (x_cred x) (x_ids x) (x_out x) (x_loose x) err.
Definition call_inner (o : op) (s : step) (x : exec) : exec :=
  let r := inner o s (x_cred x) (x_ids x) (x_st x) in
  mkExec (i_st r) (x_log x ++ [ECall o s (x_cred x) (x_ids x) (i_err r)]) (x_cred x) (x_ids x)
         (match s with SAttr => if i_err r =? 0 then Some (i_ids r) else x_out x | _ => x_out x end) (x_loose x || i_loose r) (i_err r).
Definition do_step (e : env) (q : req) (o : op) (s : step) (x : exec) : exec :=
  match s with
  | SAuth => if authorize e q then x else failed x EPERM
  | SMap => match map_creds e q with
            | Some c => mkExec (x_st x) (x_log x) c (x_ids x) (x_out x) (x_loose x) 0
            | None => failed x EPERM
            end
  | SMapIds => match map_uidgid (e_ids e) (fst (x_ids x)) (snd (x_ids x)) with
               | Some c => mkExec (x_st x) (x_log x) (x_cred x) c (x_out x) (x_loose x) 0
               | None => failed x EPERM
               end
  | SRmap => mkExec (x_st x) (x_log x) (x_cred x) (x_ids x) (option_map (rmap_stat e) (x_out x)) (x_loose x) 0
  | _ => call_inner o s x
  end.
(* ok_or_goto_out; ok_or_goto_out_ok after SCache *)
Fixpoint do_steps (e : env) (q : req) (o : op) (l : list step) (x : exec) : exec :=
  match l with
  | [] => x
  | s :: r =>
    let x' := do_step e q o s x in
    if x_err x' =? 0 then do_steps e q o r x' else match s with SCache => failed x' 0 | _ => x' end
  end.
(* op_start: opers.c:41-49; op_finish 105-113 with op_unlooseq 86-103 *)
Definition fs_op (e : env) (q : req) (o : op) (ids : Z * Z) (st : St) : exec :=
  let x := do_steps e q o (steps o) (mkExec st [ELock] (q_uid q, q_gid q) ids None false 0) in
  let y := if x_loose x then call_inner o SLoose x else failed x 0 in
  mkExec (x_st y) (x_log y ++ [EUnlock]) (x_cred y) (x_ids y) (x_out y) false (if x_err x =? 0 then x_err y else x_err x).

(* one request after the other, until one fails *)
Fixpoint fs_ops (e : env) (q : req) (os : list op) (ids : Z * Z) (st : St) : exec :=
  match os with
  | [] => mkExec st [] (q_uid q, q_gid q) ids None false 0
  | o :: r =>
    let x := fs_op e q o ids st in
    if negb (x_err x =? 0) then x
    else let y := fs_ops e q r ids (x_st x) in
         mkExec (x_st y) (x_log x ++ x_log y) (x_cred y) (x_ids y) (match x_out y with Some i => Some i | None => x_out x end) false (x_err y)
  end.

(* ---- from FUSE ---- *)
(* what a request of FUSE asks for: fuse_setattr_in.valid (do_setattr: fuseq.c:1909-1944, masks 1866-1875) *)
Record valid := mkValid { v_now : bool; v_mode : bool; v_idsv : bool; v_size : bool; v_times : bool }.
(* op_setattr: fuseq.c:5013-5060 *)
Definition setattr_ops (v : valid) : list op :=
  let l := (if v_now v then [Utimens] else []) ++ (if v_mode v then [Chmod] else []) ++ (if v_idsv v then [Chown] else []) ++
           (if v_size v then [Truncate] else []) ++
           (if v_times v && negb (v_mode v || v_idsv v || v_size v) then [Utimens] else []) in
  match l with [] => [Getattr] | _ => l end.
(* fuseq_cmd_tbl: fuseq.c:3124-3173, and silofs_op_tbl: 5401-5440; iter: fuseq.c:5305-5345; ioctls:
   do_ioctl 2984-3023 and op_ioctl 5377-5399.  None: no hook.  INIT and DESTROY do nothing here *)
Inductive ioc := IGetflags | IQuery | IClone | ISyncfs | ITune | IOther.
Definition fuse_ops (code : Z) (v : valid) (iter : bool) (i : ioc) : option (list op) :=
  match code with
  | 1 => Some [Lookup] | 2 => Some [Forget] | 3 => Some [Getattr] | 4 => Some (setattr_ops v) | 5 => Some [Readlink]
  | 6 => Some [Symlink] | 8 => Some [Mknod] | 9 => Some [Mkdir] | 10 => Some [Unlink] | 11 => Some [Rmdir]
  | 12 => Some [Rename] | 13 => Some [Link] | 14 => Some [Open]
  | 15 => Some [if iter then ReadIter else Read] | 16 => Some [if iter then WriteIter else Write]
  | 17 => Some [Statfs] | 18 => Some [Release] | 20 => Some [Fsync] | 21 => Some [Setxattr] | 22 => Some [Getxattr]
  | 23 => Some [Listxattr] | 24 => Some [Removexattr] | 25 => Some [Flush] | 26 => Some [] | 27 => Some [Opendir]
  | 28 => Some [Readdir] | 29 => Some [Releasedir] | 30 => Some [Fsyncdir] | 34 => Some [Access] | 35 => Some [Create]
  | 38 => Some []
  | 39 => Some (match i with IGetflags => [Getattr] | IQuery => [Query] | IClone => [Clone] | ISyncfs => [Syncfs] | ITune => [Tune] | IOther => [] end)
  | 42 => Some [Forget] | 43 => Some [Fallocate] | 44 => Some [Readdirplus] | 45 => Some [Rename] | 46 => Some [Lseek]
  | 47 => Some [CopyRange] | 50 => Some [Syncfs] | 52 => Some [Statx]
  | _ => None
  end.
(* fqd_exec_request: fuseq.c:3441-3457, with fqd_check_task 3330-3346, fqd_check_opcode 3225-3242; fqd_check_perm (3244-3270)
   lets all pass as fq_deny_others is false (4531) *)
Definition fuse_request (e : env) (q : req) (inited : bool) (code : Z) (v : valid) (iter : bool) (i : ioc) (ids : Z * Z) (st : St) : exec :=
  let no err := mkExec st [] (q_uid q, q_gid q) ids None false err in
  match fuse_ops code v iter i with
  | None => no ENOSYS
  | Some os => if negb inited && negb (code =? 26) then no EIO
               else if inited && (code =? 26) then no EIO
               else fs_ops e q os ids st
  end.
End Run.

(* silofs_remap_status_code: opers.c:1680-1693; EUCLEAN is 117 *)
Definition remap_status (status : Z) : Z :=
  if status =? 0 then 0 else
  let r := Z.abs status in - (if 10000 <=? r then 117 else if 1000 <=? r then r - 1000 else r).
(* sanitize_err: fuseq.c:654-665, fill_out_header: 672-678 *)
Definition reply_code (err : Z) : Z := - Z.abs (if 1000 <=? Z.abs err then remap_status err else Z.abs err).
