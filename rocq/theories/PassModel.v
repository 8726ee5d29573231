(* Passwords: cmd/getpass.c:36-258, and lib/crypt/passwd.c:25-37.

   Simplifications:
   - to die is None; messages, prompts and the wiping of memory are left out;
   - the character classes are those of the C and of UTF-8 locales;
   - a file descriptor is what can still be read from it; a regular file gives all that is asked
     for, a terminal at most one line, everything else as much as the outcome of the call says;
   - a path is a descriptor that was opened on it. *)
From Verif Require Import Base.

(* isspace *)
Definition isspace (c : Z) : bool := (c =? 32) || ((9 <=? c) && (c <=? 13)).
(* check_password_char: getpass.c:36-53 *)
Definition char_ok (c : Z) : bool :=
  let isalnum := ((48 <=? c) && (c <=? 57)) || ((65 <=? c) && (c <=? 90)) || ((97 <=? c) && (c <=? 122)) in
  let isprint := (32 <=? c) && (c <=? 126) in
  let ispunct := isprint && negb isalnum && negb (c =? 32) in
  ((0 <=? c) && (c <? 128)) && negb ((c <? 32) || (c =? 127)) && negb (isspace c) && isprint && (isalnum || ispunct).
(* isskip: getpass.c:55-58 *)
Definition isskip (c : Z) : bool := (c =? 0) || isspace c.
Fixpoint skip_front (l : bytes) : bytes := match l with [] => [] | c :: r => if isskip c then skip_front r else l end.
Definition skip_back (l : bytes) : bytes := rev (skip_front (rev l)).
(* parse_dup_password: getpass.c:60-82, SILOFS_PASSWORD_MAX: defs.h:51 *)
Definition parse_dup (buf : bytes) : option bytes :=
  let s := skip_back (skip_front buf) in
  if Nat.eqb (length s) 0 then None else if Nat.ltb 255 (length s) then None
  else if forallb char_ok s then Some s else None.

Inductive kind := Tty | Reg | Other.
(* f_size: st_size; f_data: what is left to read; f_echo: ECHO of the terminal *)
Record fd := mkFd { f_kind : kind; f_size : nat; f_data : bytes; f_echo : bool }.
Inductive rout := RErr | RDone (n : nat).
Fixpoint line (l : bytes) : bytes := match l with [] => [] | c :: r => if c =? 10 then [c] else c :: line r end.
(* silofs_sys_read: syscall.c:451-454 *)
Definition sys_read (f : fd) (bsz : nat) (o : rout) : fd * option bytes :=
  match o with
  | RErr => (f, None)
  | RDone n =>
    let m := match f_kind f with
             | Tty => Nat.min bsz (length (line (f_data f)))
             | Reg => bsz
             | Other => Nat.min bsz (Nat.max 1 n)
             end in
    (mkFd (f_kind f) (f_size f) (skipn m (f_data f)) (f_echo f), Some (firstn m (f_data f)))
  end.
(* outcomes: fstat, tcgetattr, both of tcsetattr, both of read *)
Record outs := mkOuts { u_stat : bool; u_get : bool; u_set1 : bool; u_set2 : bool; u_rd1 : rout; u_rd2 : rout }.
(* read_password_buf_from_fd: getpass.c:83-103 *)
Definition read_fd (f : fd) (bsz : nat) (u : outs) : fd * option bytes :=
  match sys_read f bsz (u_rd1 u) with
  | (f1, None) => (f1, None)
  | (f1, Some b) =>
    if Nat.eqb (length b) 0 then (f1, None)
    else if Nat.eqb (length b) bsz then
      match sys_read f1 1 (u_rd2 u) with
      | (f2, Some c) => if Nat.ltb 0 (length c) then (f2, None) else (f2, Some b)
      | (f2, None) => (f2, Some b)
      end
    else (f1, Some b)
  end.
(* read_password_from_file: getpass.c:105-122 *)
Definition read_file (f : fd) (bsz : nat) (u : outs) : fd * option bytes :=
  if negb (u_stat u) then (f, None) else if Nat.eqb (f_size f) 0 then (f, None)
  else if Nat.ltb bsz (f_size f) then (f, None) else read_fd f (f_size f) u.
Definition set_echo (f : fd) (e : bool) : fd := mkFd (f_kind f) (f_size f) (f_data f) e.
(* read_password_from_tty: getpass.c:124-167 *)
Definition read_tty (f : fd) (bsz : nat) (u : outs) : fd * option bytes :=
  if negb (u_get u) then (f, None) else if negb (u_set1 u) then (f, None) else
  let (f2, r) := sys_read (set_echo f false) bsz (u_rd1 u) in
  if negb (u_set2 u) then (f2, None) else
  let f3 := set_echo f2 (f_echo f) in
  match r with
  | None => (f3, None)
  | Some b => if Nat.eqb (length b) 0 then (f3, None) else if negb (last b 0 =? 10) then (f3, None) else (f3, Some b)
  end.
(* read_password_from: getpass.c:178-187 *)
Definition read_from (f : fd) (bsz : nat) (u : outs) : fd * option bytes :=
  match f_kind f with Tty => read_tty f bsz u | Reg => read_file f bsz u | Other => read_fd f bsz u end.
(* getpass_from: getpass.c:220-230 *)
Definition getpass (f : fd) (u : outs) : fd * option bytes :=
  match read_from f 1024 u with (f', Some b) => (f', parse_dup b) | (f', None) => (f', None) end.
(* do_getpass with repeat: getpass.c:232-258; it is what mkfs does: mkfs.c:159-164 *)
Definition getpass2 (f : fd) (u1 u2 : outs) : fd * option bytes :=
  match getpass f u1 with
  | (f1, None) => (f1, None)
  | (f1, Some p) => match getpass f1 u2 with
                    | (f2, None) => (f2, None)
                    | (f2, Some p2) => if if list_eq_dec Z.eq_dec p p2 then true else false then (f2, Some p) else (f2, None)
                    end
  end.
(* silofs_password_setup: passwd.c:25-37: the buffer of 256 bytes and the length *)
Definition password_setup (pass : bytes) : option (bytes * nat) :=
  if Nat.leb 256 (length pass) then None else Some (pass ++ repeat 0 (256 - length pass), length pass).
