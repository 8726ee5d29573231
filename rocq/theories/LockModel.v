(* Lock files of file systems: cmd/locks.c:22-191, and the commands that use them
   (cmd/mkfs.c:98-136, 215-275; cmd/restore.c:91-136, 210-262; cmd/mount.c:290-330, 574-645;
   cmd/archive.c:92-134; cmd/fsck.c:100-124; cmd/rmfs.c:230-264; cmd/view.c:87-127).

   Any number of commands run at the same time in one repository.  One step of one command is
   one call on the host; the label of a step says which command takes it, how the call ends and
   what time it is.

   Simplifications:
   - the repository directory is a map from names to files, a file is its contents; only lock
     files and boot-refs are in it.  Lock files are regular files (trystat);
   - a boot-ref is the command that made it; what a command does while it has the lock is one
     step, and for mkfs and restore it ends with the boot-ref being saved (C58);
   - the two phases of mount are two commands; rmfs is not in it, boot-refs are not removed;
   - cmd_die and signals whose handler calls exit (cmd/signals.c:49-56) run the atexit function;
     a signal during this function, or opendir failing in it, ends the command;
   - an int as written by %08x is its eight digits. *)
From Verif Require Import Base AddrModel MntModel WalkModel RulesModel CaddrModel BrefModel.

(* ---- names: cmd_lockfile_mknames, cmd_lockfile_mkdata: locks.c:60-71 ---- *)
Definition hex_chr (d : Z) : Z := if d <? 10 then 48 + d else 87 + d.
Definition hex8 (v : Z) : bytes := map (fun k => hex_chr ((v / 16 ^ k) mod 16)) [7; 6; 5; 4; 3; 2; 1; 0].
Definition lock_name (n : bytes) : bytes := firstn 254 ([46] ++ n ++ [46; 108; 111; 99; 107]).
Definition temp_name (n : bytes) (now : Z) : bytes :=
  firstn 254 ([46] ++ n ++ [95] ++ hex8 now ++ [46; 108; 111; 99; 107; 126]).
Definition lock_data (pid : Z) : bytes := print_d pid ++ [10].

(* ---- commands ---- *)
Inductive command := Mkfs | Restore | Other.
Inductive pc :=
| PCheck                (* cmd_mkfs_prepare, cmd_restore_prepare: the new name is free *)
| PLock                 (* cmd_lockfile_setup *)
| PWait (tries : nat)   (* cmd_lockfile_wait_noent *)
| PTemp                 (* cmd_lockfile_mktemp: open *)
| PWrite (ino : nat)    (* cmd_lockfile_mktemp: write *)
| PRename               (* cmd_lockfile_mklock *)
| PUndo                 (* unlink the temporary file and die *)
| PMark                 (* has_lockfile = true *)
| PWork
| PRel1                 (* cmd_unlock_fs: cmd_lockfile_setup *)
| PRel2                 (* unlink the temporary file *)
| PRel3                 (* unlink the lock file *)
| PRel4                 (* has_lockfile = false *)
| PEnd                  (* ended, lock released *)
| PDied                 (* ended without a release *)
| PKilled.
(* p_ar: the archive that is restored *)
Record proc := mkProc { p_cmd : command; p_name : bytes; p_ar : bytes; p_pid : Z; p_now : Z; p_has : bool; p_pc : pc }.
Definition goto (p : proc) (c : pc) : proc := mkProc (p_cmd p) (p_name p) (p_ar p) (p_pid p) (p_now p) (p_has p) c.
Definition set_has (p : proc) (b : bool) : proc := mkProc (p_cmd p) (p_name p) (p_ar p) (p_pid p) (p_now p) b (p_pc p).
Definition set_now (p : proc) (t : Z) : proc := mkProc (p_cmd p) (p_name p) (p_ar p) (p_pid p) t (p_has p) (p_pc p).

(* cmd_mkfs_acquire_lockfile, .._release_lockfile: mkfs.c:111-125, and the same in the others;
   cmd_restore_acquire_lockfile, .._release_lockfile: restore.c:91-105 *)
Definition acq_name (p : proc) : bytes := match p_cmd p with Restore => p_ar p | _ => p_name p end.
Definition rel_name (p : proc) : bytes := p_name p.

(* w_dir: lock files and their temporary files; w_refs: boot-refs, by the command that made them *)
Record world := mkWorld {
  w_dir : bytes -> option nat; w_data : nat -> bytes; w_next : nat;
  w_refs : bytes -> option nat; w_procs : nat -> option proc }.
Definition dset {A} (d : bytes -> option A) (n : bytes) (v : option A) : bytes -> option A :=
  fun m => if same_name n m then v else d m.
Definition set_ldir (w : world) (d : bytes -> option nat) : world := mkWorld d (w_data w) (w_next w) (w_refs w) (w_procs w).
Definition set_data (w : world) (i : nat) (b : bytes) : world :=
  mkWorld (w_dir w) (fun j => if Nat.eqb i j then b else w_data w j) (w_next w) (w_refs w) (w_procs w).
Definition set_refs (w : world) (r : bytes -> option nat) : world := mkWorld (w_dir w) (w_data w) (w_next w) r (w_procs w).
Definition set_proc (w : world) (i : nat) (p : proc) : world :=
  mkWorld (w_dir w) (w_data w) (w_next w) (w_refs w) (fun j => if Nat.eqb i j then Some p else w_procs w j).
(* open with O_CREAT: the file that is there, or a new one *)
Definition open_creat (w : world) (n : bytes) : world * nat :=
  match w_dir w n with
  | Some k => (w, k)
  | None => (mkWorld (dset (w_dir w) n (Some (w_next w))) (fun j => if Nat.eqb (w_next w) j then [] else w_data w j)
                     (S (w_next w)) (w_refs w) (w_procs w), w_next w)
  end.
(* a write at the start of a file *)
Definition over (b old : bytes) : bytes := b ++ skipn (length b) old.

(* EErr: the call fails; EKill: SIGKILL; ETerm: a signal whose handler calls exit *)
Inductive event := EOk | EErr | EKill | ETerm.
(* atexit: cmd_mkfs_atexit, mkfs.c:127-133, and the same in the others *)
Definition at_exit (p : proc) : proc := if p_has p then goto p PRel1 else goto p PDied.
Definition tnow (p : proc) : bytes := temp_name (acq_name p) (p_now p).

(* cmd_lock_fs, cmd_unlock_fs: locks.c:173-191, in their commands *)
Definition act (w : world) (i : nat) (p : proc) (ok : bool) (t : Z) : world :=
  match p_pc p with
  | PCheck =>
    match p_cmd p with
    | Other => set_proc w i (goto p PLock)
    | _ => match w_refs w (p_name p) with
           | Some _ => set_proc w i (at_exit p)
           | None => set_proc w i (if ok then goto p PLock else at_exit p)
           end
    end
  | PLock => set_proc w i (if ok then set_now (goto p (PWait 0)) t else at_exit p)
  | PWait k =>
    if ok then match w_dir w (lock_name (acq_name p)) with
               | None => set_proc w i (goto p PTemp)
               | Some _ => set_proc w i (if Nat.ltb (S k) 10 then goto p (PWait (S k)) else at_exit p)
               end
    else set_proc w i (at_exit p)
  | PTemp =>
    if ok then let '(w', ino) := open_creat w (tnow p) in set_proc w' i (goto p (PWrite ino))
    else set_proc w i (at_exit p)
  | PWrite ino =>
    if ok then set_proc (set_data w ino (over (lock_data (p_pid p)) (w_data w ino))) i (goto p PRename)
    else set_proc w i (goto p PUndo)
  | PRename =>
    if ok then match w_dir w (tnow p), w_dir w (lock_name (acq_name p)) with
               | Some ino, None =>
                 set_proc (set_ldir w (dset (dset (w_dir w) (tnow p) None) (lock_name (acq_name p)) (Some ino))) i (goto p PMark)
               | _, _ => set_proc w i (goto p PUndo)
               end
    else set_proc w i (goto p PUndo)
  | PUndo => set_proc (if ok then set_ldir w (dset (w_dir w) (tnow p) None) else w) i (at_exit p)
  | PMark => set_proc w i (set_has (goto p PWork) true)
  | PWork =>
    match p_cmd p with
    | Other => set_proc w i (goto p PRel1)
    | _ => set_proc (if ok then set_refs w (dset (w_refs w) (p_name p) (Some i)) else w) i (goto p PRel1)
    end
  | PRel1 => set_proc w i (if ok then set_now (goto p PRel2) t else goto p PDied)
  | PRel2 => set_proc (if ok then set_ldir w (dset (w_dir w) (temp_name (rel_name p) (p_now p)) None) else w) i (goto p PRel3)
  | PRel3 => set_proc (if ok then set_ldir w (dset (w_dir w) (lock_name (rel_name p)) None) else w) i (goto p PRel4)
  | PRel4 => set_proc w i (set_has (goto p PEnd) false)
  | PEnd | PDied | PKilled => w
  end.
Definition ended (c : pc) : bool := match c with PEnd | PDied | PKilled => true | _ => false end.
Record label := mkLab { l_who : nat; l_ev : event; l_time : Z }.
Definition step1 (w : world) (l : label) : world :=
  match w_procs w (l_who l) with
  | None => w
  | Some p =>
    if ended (p_pc p) then w else
    match l_ev l with
    | EOk => act w (l_who l) p true (l_time l)
    | EErr => act w (l_who l) p false (l_time l)
    | EKill => set_proc w (l_who l) (goto p PKilled)
    | ETerm => set_proc w (l_who l) (at_exit p)
    end
  end.
Fixpoint runs (w : world) (ls : list label) : world :=
  match ls with [] => w | l :: r => runs (step1 w l) r end.
