(* The mount daemon: lib/mntsvc.c, one request from the socket to the reply.

   Simplifications:
   - the system (files, devices, descriptors) is asked at points in time: W t is what it
     answers at the t-th call, so that it may change between any two calls;
   - a peer's connection is the bytes that arrive before it ends or fills a message, and the
     descriptors the kernel installs with them; EINTR and its eight retries are left out;
   - the mount options are a record instead of text (at most 140 characters of 256);
   - host byte order is little-endian; int is 32 bits, long 64;
   - log messages are left out. *)
From Verif Require Import Base AddrModel.

(* errno and SILOFS_E*: include/silofs/errors.h:22-72 *)
Definition xACCES := 13.
Definition xNOTCONN := 107.
Definition EsPERM := 1001.
Definition EsACCES := 1013.
Definition EsBUSY := 1016.
Definition EsNOTDIR := 1020.
Definition EsINVAL := 1022.
Definition EsNOTEMPTY := 1039.
Definition EsCOMM := 1070.
Definition EsPROTO := 1071.
Definition EsOPNOTSUPP := 1095.
Definition EsMOUNT := 10007.
Definition EsUMOUNT := 10008.

(* struct stat: the fields in use *)
Record stat := mkStat { t_ino : Z; t_dev : Z; t_mode : Z; t_nlink : Z; t_uid : Z }.

(* answers of the system; inl is an error number *)
Record world := mkWorld {
  w_stat : bytes -> Z + stat;
  w_statfs : bytes -> Z + Z;
  w_canon : bytes -> Z + bytes;          (* canonicalize_file_name *)
  w_open : Z + Z;                        (* open of the fuse device *)
  w_mount : Z; w_umount : Z;             (* 0 or an error number *)
  w_close : Z -> Z;
  w_send : Z }.

(* options of a mount: format_mount_data, lib/mntsvc.c:373-392 *)
Record mopts := mkMopts { o_maxread : Z; o_fd : Z; o_mode : Z; o_uid : Z; o_gid : Z; o_other : bool }.

(* what the daemon does to the system; t is when *)
Inductive event :=
| EvMount (t : nat) (path : bytes) (flags : Z) (o : mopts) (r : Z)
| EvUmount (t : nat) (path : bytes) (flags : Z) (r : Z)
| EvReply (t : nat) (b : bytes) (fd : Z) (r : Z)
| EvOpen (fd : Z)
| EvClose (fd : Z).

(* clock, events (the latest first), msvc->ms_fuse_fd *)
Record dst := mkDst { d_clock : nat; d_trace : list event; d_ffd : Z }.

(* a run ends with a value, or with the end of the daemon (silofs_panic) *)
Inductive out (A : Type) := Val (a : A) | Panic.
Arguments Val {A} a. Arguments Panic {A}.
Definition D (A : Type) := dst -> out A * dst.
Definition dret {A} (a : A) : D A := fun s => (Val a, s).
Definition dbind {A B} (m : D A) (k : A -> D B) : D B := fun s =>
  match m s with (Val a, s') => k a s' | (Panic, s') => (Panic, s') end.
Notation "x <-- m ;; k" := (dbind m (fun x => k)) (at level 61, m at next level, right associativity).
(* if (err) return err; *)
Notation "m ;! k" := (dbind m (fun e => if e =? 0 then k else dret e)) (at level 61, right associativity).

Definition dlog (e : event) : D unit := fun s => (Val tt, mkDst (d_clock s) (e :: d_trace s) (d_ffd s)).
Definition set_ffd (fd : Z) : D unit := fun s => (Val tt, mkDst (d_clock s) (d_trace s) fd).
Definition get_ffd : D Z := fun s => (Val (d_ffd s), s).
Definition get_clock : D nat := fun s => (Val (d_clock s), s).

(* ---- rules: include/silofs/mntsvc.h ---- *)
Record rule := mkRule { ru_path : bytes; ru_uid : Z; ru_rec : bool }.
Definition UID_NONE := 2 ^ 32 - 1.

(* what the daemon is given: rules (mountd: a list, maybe empty), version, page size *)
Record conf := mkConf { cf_rules : option (list rule); cf_major : Z; cf_minor : Z; cf_page : Z }.
Record cred := mkCred { cr_uid : Z; cr_gid : Z }.

(* ---- messages: lib/mntsvc.c:29-51 ---- *)
Record mmsg := mkMmsg {
  g_magic : Z; g_major : Z; g_minor : Z; g_cmd : Z; g_status : Z; g_flags : Z;
  g_uid : Z; g_gid : Z; g_mode : Z; g_maxread : Z; g_other : Z; g_check : Z;
  g_res : bytes; g_path : bytes }.

Definition META_MAGIC := 1869375859.   (* 0x6F6C6973: include/silofs/defs.h:48 *)
Definition MNTPATH_MAX := 1920.        (* defs.h:63 *)
Definition MSG_SIZE := 2048%nat.
Definition MSGHDR_SIZE := 56%nat.      (* sizeof(struct msghdr) *)
Definition CMD_HANDSHAKE := 1.
Definition CMD_MOUNT := 2.
Definition CMD_UMOUNT := 3.

Definition msg_enc (m : mmsg) : bytes :=
  le_enc 4 (g_magic m) ++ le_enc 2 (g_major m) ++ le_enc 2 (g_minor m) ++ le_enc 4 (g_cmd m) ++
  le_enc 4 (g_status m) ++ le_enc 8 (g_flags m) ++ le_enc 4 (g_uid m) ++ le_enc 4 (g_gid m) ++
  le_enc 4 (g_mode m) ++ le_enc 4 (g_maxread m) ++ le_enc 1 (g_other m) ++ le_enc 1 (g_check m) ++
  g_res m ++ g_path m.
Definition msg_dec (b : bytes) : mmsg :=
  mkMmsg (le_dec (sub 0 4 b)) (le_dec (sub 4 2 b)) (le_dec (sub 6 2 b)) (le_dec (sub 8 4 b))
    (le_dec (sub 12 4 b)) (le_dec (sub 16 8 b)) (le_dec (sub 24 4 b)) (le_dec (sub 28 4 b))
    (le_dec (sub 32 4 b)) (le_dec (sub 36 4 b)) (le_dec (sub 40 1 b)) (le_dec (sub 41 1 b))
    (sub 42 86 b) (sub 128 1920 b).

(* mntmsg_init: lib/mntsvc.c:442-452 *)
Definition msg_init (F : conf) (cmd : Z) : mmsg :=
  mkMmsg META_MAGIC (cf_major F) (cf_minor F) cmd 0 0 0 0 0 0 0 0 (repeat 0 86) (repeat 0 1920).

(* the characters of a string before its NUL *)
Fixpoint cstr (b : bytes) : bytes :=
  match b with [] => [] | x :: r => if x =? 0 then [] else x :: cstr r end.

(* mntmsg_path: lib/mntsvc.c:459-466 *)
Definition msg_path (m : mmsg) : option bytes :=
  let p := cstr (g_path m) in
  let len := Z.of_nat (length p) in
  if negb (len =? 0) && (len <? MNTPATH_MAX) then Some p else None.

(* struct silofs_mntparams: lib/mntsvc.c:60-69 *)
Record mpar := mkMpar {
  p_path : option bytes; p_flags : Z; p_uid : Z; p_gid : Z; p_mode : Z; p_maxread : Z;
  p_other : bool; p_check : bool }.

(* mntmsg_to_params: lib/mntsvc.c:479-490 *)
Definition to_params (m : mmsg) : mpar :=
  mkMpar (msg_path m) (g_flags m) (g_uid m) (g_gid m) (g_mode m) (g_maxread m)
    (g_other m >? 0) (g_check m >? 0).

(* mntmsg_set_path, mntmsg_from_params, mntmsg_setup: lib/mntsvc.c:468-477, 492-511 *)
Definition msg_setup (F : conf) (cmd : Z) (p : mpar) : Z + mmsg :=
  let i := msg_init F cmd in
  let fill q := mkMmsg (g_magic i) (g_major i) (g_minor i) (g_cmd i) (g_status i) (p_flags p)
    (u32 (p_uid p)) (u32 (p_gid p)) (u32 (p_mode p)) (u32 (p_maxread p))
    (if p_other p then 1 else 0) (if p_check p then 1 else 0) (g_res i) q in
  match p_path p with
  | None => inr (fill (g_path i))
  | Some q =>
    let len := Z.of_nat (length q) in
    if (len =? 0) || (len >=? MNTPATH_MAX) then inl (- EsINVAL)
    else inr (fill (q ++ skipn (length q) (g_path i)))
  end.

(* mntmsg_check: lib/mntsvc.c:536-557 *)
Definition msg_check (F : conf) (m : mmsg) : Z :=
  if negb (g_magic m =? META_MAGIC) then - EsINVAL
  else if negb (g_major m =? cf_major F) then - EsPROTO
  else if g_minor m >? cf_minor F then - EsPROTO
  else if (g_cmd m =? CMD_HANDSHAKE) || (g_cmd m =? CMD_MOUNT) || (g_cmd m =? CMD_UMOUNT) then 0
  else - EsINVAL.

Section Daemon.
Variable W : nat -> world.
Variable F : conf.

(* a call of the system *)
Definition sys {A} (f : world -> A) : D A := fun s =>
  (Val (f (W (d_clock s))), mkDst (S (d_clock s)) (d_trace s) (d_ffd s)).

(* close_fd: lib/mntsvc.c:235-246 *)
Definition close_fd (fd : Z) : D unit :=
  if fd >? 0 then
    r <-- sys (fun w => w_close w fd) ;;
    if r =? 0 then dlog (EvClose fd) else (fun s => (Panic, s))
  else dret tt.

(* ---- checks ---- *)
(* fsinfo_allowed: lib/mntsvc.c:107-143: the type, allowed, isfuse *)
Definition fsinfo : list (Z * bool * bool) :=
  [ (1702057286, false, true);    (* 0x65735546 FUSE *)
    (16914836, false, false);     (* 0x01021994 TMPFS *)
    (1481003842, true, false);    (* 0x58465342 XFS *)
    (61267, true, false);         (* 0x0000EF53 EXT234 *)
    (801189825, true, false);     (* 0x2FC12FC1 ZFS *)
    (2435016766, true, false);    (* 0x9123683E BTRFS *)
    (12805120, true, false);      (* 0x00C36400 CEPH *)
    (4283649346, true, false);    (* 0xFF534D42 CIFS *)
    (61791, false, false);        (* 0x0000F15F ECRYPTFS *)
    (4076150800, true, false);    (* 0xF2F52010 F2FS *)
    (26985, true, false);         (* 0x00006969 NFS *)
    (1397118030, true, false);    (* 0x5346544E NTFS *)
    (2035054128, false, false) ]. (* 0x794C7630 OVERLAYFS *)

(* silofs_fsinfo_by_vfstype, check_mntdir_fstype: lib/mntsvc.c:145-171 *)
Definition check_fstype (t : Z) : Z :=
  match List.find (fun x => fst (fst x) =? t) fsinfo with
  | None => - EsINVAL
  | Some (_, allowed, isfuse) => if isfuse || negb allowed then - EsMOUNT else 0
  end.

Definition is_dir (mode : Z) : bool := Z.land mode 61440 =? 16384.   (* S_ISDIR *)
Definition is_chr (mode : Z) : bool := Z.land mode 61440 =? 8192.    (* S_ISCHR *)
Definition INO_ROOT := 1.                                             (* defs.h:168 *)

(* check_mntpoint, check_mntpoint_fstype: lib/mntsvc.c:189-231, 173-187 *)
Definition check_mntpoint (path : bytes) (uid : Z) (mounting : bool) : D Z :=
  r <-- sys (fun w => w_stat w path) ;;
  match r with
  | inl e => if (e =? xACCES) && negb mounting then dret 0 else dret (- e)
  | inr st =>
    if negb (is_dir (t_mode st)) then dret (- EsNOTDIR)
    else if mounting then
      if t_nlink st >? 2 then dret (- EsNOTEMPTY)
      else if t_ino st =? INO_ROOT then dret (- EsBUSY)
      else if negb (uid =? t_uid st) then dret (- EsMOUNT)
      else f <-- sys (fun w => w_statfs w path) ;;
           match f with inl e => dret (- e) | inr t => dret (check_fstype t) end
    else if negb (t_ino st =? INO_ROOT) then dret (- EsINVAL)
    else dret 0
  end.

(* silofs_strview_trim_chr: lib/str/strview.c:627-634: leading characters only *)
Fixpoint trim_slash (b : bytes) : bytes :=
  match b with x :: r => if x =? 47 then trim_slash r else b | [] => [] end.

Fixpoint same_bytes (a b : bytes) : bool :=
  match a, b with
  | [], [] => true
  | x :: a', y :: b' => (x =? y) && same_bytes a' b'
  | _, _ => false
  end.

(* equal_mntpath: lib/mntsvc.c:250-263 *)
Definition equal_mntpath (a b : bytes) : bool :=
  negb (Z.of_nat (length (trim_slash a)) =? 0) && same_bytes (trim_slash a) (trim_slash b).

(* equal_path_by_stat: lib/mntsvc.c:265-284 *)
Definition equal_by_stat (path : bytes) (st2 : stat) : D bool :=
  r <-- sys (fun w => w_stat w path) ;;
  match r with
  | inl _ => dret false
  | inr st1 => dret ((t_ino st1 =? t_ino st2) && (t_dev st1 =? t_dev st2) && (t_mode st1 =? t_mode st2))
  end.

(* check_canonical_path: lib/mntsvc.c:286-304 *)
Definition check_canon (path : bytes) : D Z :=
  if Z.of_nat (length path) =? 0 then dret (- EsINVAL)
  else r <-- sys (fun w => w_canon w path) ;;
       match r with
       | inl e => dret (- e)
       | inr c => if same_bytes path c then dret 0 else dret (- EsINVAL)
       end.

(* check_mount_path: lib/mntsvc.c:306-319 *)
Definition check_mount_path (path : bytes) (uid : Z) : D Z :=
  check_canon path ;! check_mntpoint path uid true.

(* check_umount_path: lib/mntsvc.c:321-337 *)
Definition check_umount_path (path : bytes) (uid : Z) (force : bool) : D Z :=
  e <-- check_mntpoint path uid false ;;
  if e =? 0 then dret 0
  else if negb (e =? - xNOTCONN) then dret e
  else if negb force then dret e
  else dret 0.

(* the loop of mntsvc_check_mount_mntrule: lib/mntsvc.c:817-823 *)
Fixpoint find_rule_by_stat (rs : list rule) (st : stat) : D (option rule) :=
  match rs with
  | [] => dret None
  | r :: t => b <-- equal_by_stat (ru_path r) st ;;
              if b then dret (Some r) else find_rule_by_stat t st
  end.

(* mntsvc_check_mount_mntrule: lib/mntsvc.c:795-840 *)
Definition check_mount_rule (c : cred) (path : bytes) : D Z :=
  match cf_rules F with
  | None => dret (- EsMOUNT)
  | Some rs =>
    r <-- sys (fun w => w_stat w path) ;;
    match r with
    | inl e => dret (- e)
    | inr st =>
      m <-- find_rule_by_stat rs st ;;
      match m with
      | None => dret (- EsMOUNT)
      | Some ru => if negb (ru_uid ru =? UID_NONE) && negb (ru_uid ru =? cr_uid c)
                   then dret (- EsMOUNT) else dret 0
      end
    end
  end.

(* mntsvc_check_umount_mntrule: lib/mntsvc.c:842-872 *)
Definition check_umount_rule (c : cred) (path : bytes) : Z :=
  match cf_rules F with
  | None | Some [] => 0
  | Some rs =>
    match List.find (fun r => equal_mntpath (ru_path r) path) rs with
    | None => - EsUMOUNT
    | Some ru => if negb (ru_uid ru =? UID_NONE) && negb (ru_uid ru =? cr_uid c)
                 then - EsUMOUNT else 0
    end
  end.

(* MS_LAZYTIME | MS_NOEXEC | MS_NOSUID | MS_NODEV | MS_RDONLY *)
Definition MNT_MASK := 33554432 + 8 + 2 + 4 + 1.
(* MNT_DETACH | MNT_FORCE *)
Definition UMNT_MASK := 2 + 1.

(* mntsvc_check_mount: lib/mntsvc.c:874-913 *)
Definition check_mount (c : cred) (p : mpar) : D Z :=
  if negb (Z.ldiff (p_flags p) MNT_MASK =? 0) then dret (- EsOPNOTSUPP)
  else if Z.land (p_mode p) 448 =? 0 then dret (- EsOPNOTSUPP)
  else if Z.land (p_mode p) 16384 =? 0 then dret (- EsINVAL)
  else if negb (p_uid p =? cr_uid c) || negb (p_gid p =? cr_gid c) then dret (- EsACCES)
  else if p_maxread p <? 2 * cf_page F then dret (- EsINVAL)
  else if p_maxread p >? 512 * cf_page F then dret (- EsINVAL)
  else match p_path p with
       | None => dret (- EsINVAL)
       | Some path => check_mount_rule c path ;! check_mount_path path (cr_uid c)
       end.

Definition dev_fuse : bytes := [47; 100; 101; 118; 47; 102; 117; 115; 101].

(* check_fuse_dev, open_fuse_dev: lib/mntsvc.c:339-371 *)
Definition open_fuse : D (Z + Z) :=
  r <-- sys (fun w => w_stat w dev_fuse) ;;
  match r with
  | inl e => dret (inl (- e))
  | inr st =>
    if negb (is_chr (t_mode st)) then dret (inl (- EsINVAL))
    else f <-- sys w_open ;;
         match f with
         | inl e => dret (inl (- e))
         | inr fd => _ <-- dlog (EvOpen fd) ;; dret (inr fd)
         end
  end.

(* do_mount_fuse_fs, mntsvc_do_mount: lib/mntsvc.c:400-423, 915-928 *)
Definition do_mount (p : mpar) (path : bytes) : D Z :=
  _ <-- set_ffd (-1) ;;
  f <-- open_fuse ;;
  match f with
  | inl e => dret e
  | inr fd =>
    let o := mkMopts (p_maxread p) fd (p_mode p) (p_uid p) (p_gid p) (p_other p) in
    t <-- get_clock ;;
    r <-- sys w_mount ;;
    _ <-- dlog (EvMount t path (p_flags p) o r) ;;
    if r =? 0 then _ <-- set_ffd fd ;; dret 0
    else _ <-- close_fd fd ;; dret (- r)
  end.

(* mntsvc_exec_mount: lib/mntsvc.c:930-947; the path is not NULL after the check *)
Definition exec_mount (c : cred) (p : mpar) : D Z :=
  check_mount c p ;!
  if p_check p then dret 0
  else match p_path p with None => dret (- EsINVAL) | Some path => do_mount p path end.

(* mntsvc_check_umount: lib/mntsvc.c:949-977 *)
Definition check_umount (c : cred) (p : mpar) (path : bytes) : D Z :=
  if negb (Z.ldiff (p_flags p) UMNT_MASK =? 0) then dret (- EsINVAL)
  else if negb (Z.lor (p_flags p) UMNT_MASK =? UMNT_MASK) then dret (- EsINVAL)
  else let force := Z.land (p_flags p) 1 >? 0 in
       check_umount_path path (cr_uid c) force ;! dret (check_umount_rule c path).

(* mntsvc_exec_umount, mntsvc_do_umount: lib/mntsvc.c:992-1006, 979-990 *)
Definition exec_umount (c : cred) (p : mpar) : D Z :=
  match p_path p with
  | None => dret (- EsPERM)
  | Some path =>
    e <-- check_umount c p path ;;
    if negb (e =? 0) && negb (e =? - xNOTCONN) then dret e
    else t <-- get_clock ;;
         r <-- sys w_umount ;;
         _ <-- dlog (EvUmount t path (p_flags p) r) ;;
         dret (- r)
  end.

(* mntsvc_exec_request: lib/mntsvc.c:1018-1044 *)
Definition exec_request (c : cred) (m : mmsg) : D Z :=
  let p := to_params m in
  if g_cmd m =? CMD_HANDSHAKE then dret 0
  else if g_cmd m =? CMD_MOUNT then exec_mount c p
  else if g_cmd m =? CMD_UMOUNT then exec_umount c p
  else dret (- EsOPNOTSUPP).

(* what arrives: an error, or bytes (at most the size of a message) and descriptors *)
Definition input := (Z + bytes * list Z)%type.

(* do_recvmsg, do_unpack_fd, mntmsg_recv, mntmsg_recv2: lib/mntsvc.c:621-699;
   silofs_cmsg_unpack_fd: lib/infra/socket.c:275-288.  The buffer takes up to two
   descriptors. *)
Definition recv_msg (i : input) : D (Z + mmsg) :=
  match i with
  | inl e => dret (inl (- e))
  | inr (b, fds) =>
    if (length b <? MSGHDR_SIZE)%nat then dret (inl (- EsCOMM))
    else match fds with
         | [] => dret (inr (msg_dec (b ++ skipn (length b) (msg_enc (msg_init F 0)))))
         | [fd] => _ <-- close_fd fd ;;
                   dret (inr (msg_dec (b ++ skipn (length b) (msg_enc (msg_init F 0)))))
         | _ => dret (inl (-1))
         end
  end.

(* mntsvc_fill_response, mntmsg_set_status: lib/mntsvc.c:1046-1055, 432-440 *)
Definition reply_of (m : mmsg) (err : Z) : mmsg :=
  let i := msg_init F (g_cmd m) in
  mkMmsg (g_magic i) (g_major i) (g_minor i) (g_cmd i) (Z.abs err) (g_flags i) (g_uid i) (g_gid i)
    (g_mode i) (g_maxread i) (g_other i) (g_check i) (g_res i) (g_path i).

(* mntsvc_serve_request, mntsvc_recv_request, mntsvc_send_response, mntsvc_fini:
   lib/mntsvc.c:1074-1088, 778-793, 1057-1072, 732-738 *)
Definition serve (c : cred) (i : input) : D unit :=
  _ <-- set_ffd (-1) ;;
  r <-- recv_msg i ;;
  match r with
  | inl _ => dret tt
  | inr m =>
    if negb (msg_check F m =? 0) then dret tt
    else e <-- exec_request c m ;;
         fd <-- get_ffd ;;
         t <-- get_clock ;;
         s <-- sys w_send ;;
         _ <-- dlog (EvReply t (msg_enc (reply_of m e)) fd s) ;;
         _ <-- close_fd fd ;;
         set_ffd (-1)
  end.
End Daemon.
