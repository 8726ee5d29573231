(* Boot-ref files: cmd/bootref.c:26-204, the names allowed for them (lib/boot.c:22-130), and the
   order in which a snapshot writes them (cmd/snap.c:225-444).

   Simplifications:
   - the repository directory is a map from file names to files which the user owns: mode and
     contents; links and special files are left out, and a directory there stands for any file
     that can not be replaced (the rename fails);
   - each call on the host may fail, or the process may be killed before it (a write: in the
     middle of it); the events say so, in order, and when they end nothing fails any more.  An
     error and a kill differ only in what the command does next.  Errors of calls whose results
     are not looked at (chmod of the old file, close) leave the file as it was;
   - the permissions of the owner count unless the user is root; the umask takes nothing from
     the owner;
   - the file system, mounted or not, is the address of the boot record it is at: what a
     snapshot does to it is in SnapModel.v; its two results come from events too. *)
From Verif Require Import Base AddrModel MntModel WalkModel RulesModel CaddrModel.

(* ---- the host ---- *)
Record hfile := mkHfile { f_mode : Z; f_data : bytes }.
Definition hdir := bytes -> option hfile.
Fixpoint same_name (a b : bytes) : bool :=
  match a, b with
  | [], [] => true
  | x :: a', y :: b' => (x =? y) && same_name a' b'
  | _, _ => false
  end.
Definition upd (d : hdir) (n : bytes) (f : option hfile) : hdir := fun m => if same_name n m then f else d m.

Inductive event := EvOk | EvErr (n : nat) | EvKill (n : nat).
(* how a command ends: it goes on, it has died (cmd_die), it was killed *)
Inductive fin := Went | Died | Killed.
Record hst := mkHst { h_dir : hdir; h_evs : list event; h_fin : fin }.
Definition next (s : hst) : event * hst :=
  match h_evs s with
  | [] => (EvOk, s)
  | e :: r => (e, mkHst (h_dir s) r (h_fin s))
  end.
Definition ended (s : hst) (f : fin) : hst := mkHst (h_dir s) (h_evs s) f.
Definition set_dir (s : hst) (d : hdir) : hst := mkHst d (h_evs s) (h_fin s).
(* one call after another, as long as the command goes on *)
Definition step := hst -> hst.
Definition andthen (p q : step) : step := fun s =>
  let s' := p s in match h_fin s' with Went => q s' | _ => s' end.
Notation "p ;> q" := (andthen p q) (at level 61, right associativity).
(* a call whose error is fatal: what it does, or None if the host refuses *)
Definition must (act : hdir -> option hdir) : step := fun s =>
  match next s with
  | (EvOk, s') => match act (h_dir s') with Some d => set_dir s' d | None => ended s' Died end
  | (EvErr _, s') => ended s' Died
  | (EvKill _, s') => ended s' Killed
  end.
(* a call whose result is not looked at *)
Definition may (act : hdir -> option hdir) : step := fun s =>
  match next s with
  | (EvOk, s') => match act (h_dir s') with Some d => set_dir s' d | None => s' end
  | (EvErr _, s') => s'
  | (EvKill _, s') => ended s' Killed
  end.

Definition OWNER_R := 256.  (* S_IRUSR 0400 *)
Definition OWNER_W := 128.  (* S_IWUSR 0200 *)
Definition permits (root : bool) (mode want : Z) : bool := root || (Z.land mode want =? want).

(* open(n, O_CREAT | O_RDWR | O_TRUNC, 0600) *)
Definition h_create (root : bool) (n : bytes) (d : hdir) : option hdir :=
  match d n with
  | None => Some (upd d n (Some (mkHfile (OWNER_R + OWNER_W) [])))
  | Some f => if permits root (f_mode f) (OWNER_R + OWNER_W)
              then Some (upd d n (Some (mkHfile (f_mode f) []))) else None
  end.
(* chmod, and fchmod of the file which is open under that name *)
Definition h_chmod (n : bytes) (mode : Z) (d : hdir) : option hdir :=
  match d n with
  | None => None
  | Some f => Some (upd d n (Some (mkHfile mode (f_data f))))
  end.
(* write at the end of what is there *)
Definition h_append (n : bytes) (b : bytes) (d : hdir) : option hdir :=
  match d n with
  | None => None
  | Some f => Some (upd d n (Some (mkHfile (f_mode f) (f_data f ++ b))))
  end.
(* silofs_sys_writen, silofs_sys_pwriten: lib/sys/syscallx.c:103-147.  An error or a kill comes
   after n bytes, fewer than all *)
Definition h_writen (n : bytes) (b : bytes) : step := fun s =>
  let part k s' := match h_append n (firstn (Nat.min k (length b - 1)) b) (h_dir s') with
                   | Some d => set_dir s' d | None => s' end in
  match next s with
  | (EvOk, s') => match h_append n b (h_dir s') with Some d => set_dir s' d | None => ended s' Died end
  | (EvErr k, s') => ended (part k s') Died
  | (EvKill k, s') => ended (part k s') Killed
  end.
Definition h_rename (a b : bytes) (d : hdir) : option hdir :=
  match d a with
  | None => None
  | Some f => Some (upd (upd d a None) b (Some f))
  end.

(* ---- cmd/bootref.c ---- *)
(* cmd_bref_tmp_pathname: bootref.c:58-68, in the directory *)
Definition tmp_name (n : bytes) : bytes := n ++ [126].
(* cmd_save_bref_file: bootref.c:70-108; the second write puts a newline at the end *)
Definition save_bref_file (root : bool) (n : bytes) (txt : bytes) : step :=
  must (h_create root (tmp_name n)) ;>
  must (h_chmod (tmp_name n) OWNER_R) ;>
  h_writen (tmp_name n) txt ;>
  h_writen (tmp_name n) [10] ;>
  may (fun d => Some d) ;>
  may (h_chmod n (OWNER_R + OWNER_W)) ;>
  (fun s => match next s with
            | (EvOk, s') => match h_rename (tmp_name n) n (h_dir s') with
                            | Some d => set_dir s' d
                            | None => (may (h_chmod n OWNER_R) ;> (fun s2 => ended s2 Died)) s'
                            end
            | (EvErr _, s') => (may (h_chmod n OWNER_R) ;> (fun s2 => ended s2 Died)) s'
            | (EvKill _, s') => ended s' Killed
            end) ;>
  must (h_chmod n OWNER_R).
(* cmd_bootref_save, cmd_encode_bootref: bootref.c:122-136, 175-184, lib/boot.c:822-826 *)
Definition bootref_save (root : bool) (n : bytes) (c : caddr) : step := save_bref_file root n (caddr_to_name c).
(* cmd_bootref_unlink: bootref.c:198-204 *)
Definition bootref_unlink (n : bytes) : step := may (fun d => Some (upd d n None)).

(* cmd_load_bref_file: bootref.c:26-56.  The file may change between stat and open (d1, d2):
   as many bytes are read as it had.  What is behind a NUL is not seen by strlen *)
Definition KILO := 1024.
Definition load_bref_file (root : bool) (n : bytes) (d1 d2 : hdir) : option bytes :=
  match d1 n with
  | None => None
  | Some f1 =>
    let len := zlen (f_data f1) in
    if len >=? KILO then None else
    match d2 n with
    | None => None
    | Some f2 =>
      if negb (permits root (f_mode f2) OWNER_R) then None else
      if zlen (f_data f2) <? len then None
      else Some (cstr (firstn (Z.to_nat len) (f_data f2)))
    end
  end.
(* cmd_bootref_load, cmd_bootref_load_ar, .._reload, .._verify: bootref.c:110-120, 138-173 *)
Definition bootref_load (root : bool) (ctype : Z) (n : bytes) (d1 d2 : hdir) : option caddr :=
  match load_bref_file root n d1 d2 with
  | None => None
  | Some txt => match caddr_by_name txt with
                | None => None
                | Some c => if ca_type c =? ctype then Some c else None
                end
  end.

(* ---- names: lib/boot.c:22-130 ---- *)
Definition ALLOWED : bytes :=
  [97; 98; 99; 100; 101; 102; 103; 104; 105; 106; 107; 108; 109; 110; 111; 112; 113; 114; 115; 116; 117; 118; 119; 120; 121; 122;
   65; 66; 67; 68; 69; 70; 71; 72; 73; 74; 75; 76; 77; 78; 79; 80; 81; 82; 83; 84; 85; 86; 87; 88; 89; 90;
   48; 49; 50; 51; 52; 53; 54; 55; 56; 57; 95; 45; 43; 46].
Definition chr_isprint (c : Z) : bool := (32 <=? c) && (c <? 127).
Definition chr_iscntrl (c : Z) : bool := ((0 <=? c) && (c <? 32)) || (c =? 127).
(* check_ascii_fs_name: boot.c:22-49 *)
Definition check_ascii_fs_name (s : bytes) : bool :=
  forallb chr_isprint s && forallb chr_isascii s && negb (existsb (one_of SPACES) s) &&
  negb (existsb chr_iscntrl s) && negb (sv_find_from (none_of ALLOWED) s 0 <? zlen s).
(* silofs_make_fsnamestr with its checks: boot.c:51-130.  The name ends at the NUL *)
Definition NAME_MAX := 255.
Definition FSNAME_MAX := 127.
Definition fsname_ok (s : bytes) : bool :=
  if zlen s =? 0 then false
  else if zlen s >? NAME_MAX then false
  else if existsb (Z.eqb 47) s then false
  else if (hd 0 s =? 46) then false
  else if zlen s >? FSNAME_MAX then false
  else check_ascii_fs_name s.

(* ---- the snapshot: cmd/snap.c ---- *)
(* the files, and the boot record the file system is at *)
Record snst := mkSnst { n_host : hst; n_live : caddr }.
Definition snstep := snst -> snst.
Definition sn_then (p q : snstep) : snstep := fun s =>
  let s' := p s in match h_fin (n_host s') with Went => q s' | _ => s' end.
Notation "p ;; q" := (sn_then p q) (at level 61, right associativity).
Definition on_files (p : step) : snstep := fun s => mkSnst (p (n_host s)) (n_live s).
Definition nothing : step := must (fun d => Some d).

(* the arguments: cmd_snap_prepare_online, .._offline: snap.c:168-198; cmd_check_notexists:
   cmd/cmdutils.c:166-191 *)
Definition snap_prepare (name snap : bytes) : step := fun s =>
  if fsname_ok name && fsname_ok snap
  then match h_dir s snap with None => nothing s | Some _ => ended s Died end
  else ended s Died.
(* cmd_snap_load_bref .. cmd_snap_poke_fs: snap.c:413-425: the password may be wrong and the
   record not there: an event *)
Definition snap_load (root : bool) (name : bytes) : step := fun s =>
  match bootref_load root CT_BOOTREC name (h_dir s) (h_dir s) with
  | None => ended s Died
  | Some _ => nothing s
  end.
(* the clone: online (snap.c:225-255, 356-363) and off-line (365-375).  An error before the
   fork: nothing has happened.  After it the file system is at its new record; the call for
   another sync (257-273) or the close of file system and repository may still fail.  The names in the answer are read
   without a look at the error: the address stays none (zeros) then *)
Definition NO_CADDR : caddr := mkCaddr (repeat 0 32) 0 0.
Definition read_answer (c : caddr) : caddr :=
  match caddr_by_name (caddr_to_name c) with Some c' => c' | None => NO_CADDR end.
Definition snap_fork (new : caddr) : snstep := fun s =>
  let h := nothing (n_host s) in
  match h_fin h with
  | Went => mkSnst h new
  | _ => mkSnst h (n_live s)
  end.
(* cmd_execute_snap: snap.c:390-444 *)
Definition snap_command (root : bool) (name snap : bytes) (new alt : caddr) : snstep :=
  on_files (snap_prepare name snap) ;;
  on_files (snap_load root name) ;;
  snap_fork new ;;
  on_files nothing ;;
  on_files (bootref_save root snap (read_answer alt)) ;;
  on_files (bootref_save root name (read_answer new)).
