(* The file of users and groups of a repository, fsids.conf: cmd/idsconf.c, its numbers
   (cmd/cmdutils.c:482-540), and what init and mkfs do with it (cmd/init.c:139-184,
   cmd/mkfs.c:177-185).

   Simplifications:
   - a view (pointer and length) is the list of its bytes, as in RulesModel.v; splitting the
     pair into itself (idsconf.c:679) reads before it writes;
   - cmd_die ends the command: None.  Memory does not run out;
   - the databases of users and groups are functions; they may change only between commands.
     An error of getpwnam_r and an unknown name are not told apart;
   - the file is given by the bytes read from it; that it is a regular file, and the calls to
     read and write it, are left out. *)
From Verif Require Import Base AddrModel MntModel WalkModel RulesModel CaddrModel IdsmapModel.

(* ---- databases: getpwnam_r, getpwuid_r, getgrnam_r, getgrgid_r ---- *)
(* need: the bytes a result takes in the buffer of the caller *)
Record pwent := mkPw { pw_name : bytes; pw_uid : Z; pw_gid : Z; pw_need : Z }.
Record grent := mkGr { gr_name : bytes; gr_gid : Z; gr_need : Z }.
Record userdb := mkDb {
  pwnam : bytes -> option pwent; pwuid : Z -> option pwent;
  grnam : bytes -> option grent; grgid : Z -> option grent;
  grlist : bytes -> list Z }.   (* the groups of a user *)

(* cmd_sysconf: idsconf.c:153-162.  It answers with the key *)
Definition SC_GETGR := 69.
Definition SC_GETPW := 70.
Definition cmd_sysconf (key ret : Z) : option Z := if ret <? 0 then None else Some key.
(* cmd_getxx_bsz: idsconf.c:164-174 *)
Definition getxx_bsz (ret1 ret2 : Z) : option Z :=
  match cmd_sysconf SC_GETPW ret1, cmd_sysconf SC_GETGR ret2 with
  | Some bsz1, Some bsz2 =>
    let bsz := if bsz1 >? bsz2 then bsz1 else bsz2 in Some ((bsz + 1024 - 1) / 1024 * 1024)
  | _, _ => None
  end.

(* host and file system id *)
Record fsids := mkFsids { i_users : list (Z * Z); i_groups : list (Z * Z) }.
Definition NO_IDS : fsids := mkFsids [] [].
Inductive sect := SecNil | SecUsers | SecGroups.
Definition sect_eqb (a b : sect) : bool :=
  match a, b with SecNil, SecNil | SecUsers, SecUsers | SecGroups, SecGroups => true | _, _ => false end.
Definition s_users : bytes := [117; 115; 101; 114; 115].
Definition s_groups : bytes := [103; 114; 111; 117; 112; 115].

(* ---- numbers ---- *)
(* cmd_parse_str_as_long: cmdutils.c:482-496 *)
Definition str_as_long (s : bytes) : option Z :=
  match strtol s with
  | None => None
  | Some (v, range, e) => if range then None else if zlen e >? 1 then None else Some v
  end.
(* cmd_parse_str_as_uid, .._as_gid: cmdutils.c:520-540 *)
Definition str_as_id (s : bytes) : option Z :=
  match str_as_long s with
  | None => None
  | Some v => if (v <? 0) || (v >? INT_MAX / 2) then None else Some v
  end.
(* cmd_parse_uid_by_value, .._gid_by_value: idsconf.c:125-149 *)
Definition id_by_value (ss : bytes) : option Z :=
  if zlen ss >=? 64 then None else str_as_id ss.

Section Db.
Variables (db : userdb) (ret1 ret2 : Z).

(* the buffer is large enough *)
Definition fits (need : Z) : bool :=
  match getxx_bsz ret1 ret2 with Some bsz => need <=? bsz | None => false end.
(* cmd_resolve_uid_by_name, .._gid_by_name: idsconf.c:176-216 *)
Definition uid_by_name (name : bytes) : option Z :=
  match pwnam db name with Some e => if fits (pw_need e) then Some (pw_uid e) else None | None => None end.
Definition gid_by_name (name : bytes) : option Z :=
  match grnam db name with Some e => if fits (gr_need e) then Some (gr_gid e) else None | None => None end.
(* cmd_resolve_uid_to_name, .._gid_to_name: idsconf.c:218-268 *)
Definition name_fit (name : bytes) (nsz : Z) : option bytes :=
  if (zlen name =? 0) || (zlen name >=? nsz) then None else Some name.
Definition uid_to_name (uid nsz : Z) : option bytes :=
  match pwuid db uid with Some e => if fits (pw_need e) then name_fit (pw_name e) nsz else None | None => None end.
Definition gid_to_name (gid nsz : Z) : option bytes :=
  match grgid db gid with Some e => if fits (gr_need e) then name_fit (gr_name e) nsz else None | None => None end.
(* cmd_resolve_uidgid: idsconf.c:846-866 *)
Definition resolve_uidgid (name : bytes) : option (Z * Z) :=
  match pwnam db name with Some e => if fits (pw_need e) then Some (pw_uid e, pw_gid e) else None | None => None end.

(* ---- reading ---- *)
Definition NAME_BUF := 256.
(* cmd_parse_uid_by_name, cmd_parse_uids, cmd_parse_user_conf: idsconf.c:376-387, 402-409, 420-437 *)
Definition parse_user_conf (line : bytes) (ids : fsids) : option fsids :=
  let '(a, b) := sv_split_chr 61 line in
  let name := sv_strip_ws a in
  let suid := sv_strip_ws b in
  if sv_isempty name || sv_isempty suid then None else
  if zlen name >=? NAME_BUF then None else
  match uid_by_name name with
  | None => None
  | Some fs_uid => match id_by_value suid with
                   | None => None
                   | Some host_uid => Some (mkFsids (i_users ids ++ [(host_uid, fs_uid)]) (i_groups ids))
                   end
  end.
(* cmd_parse_gid_by_name, cmd_parse_gids, cmd_parse_group_conf: idsconf.c:389-400, 411-418, 439-456 *)
Definition parse_group_conf (line : bytes) (ids : fsids) : option fsids :=
  let '(a, b) := sv_split_chr 61 line in
  let name := sv_strip_ws a in
  let sgid := sv_strip_ws b in
  if sv_isempty name || sv_isempty sgid then None else
  if zlen name >=? NAME_BUF then None else
  match gid_by_name name with
  | None => None
  | Some host_gid => match id_by_value sgid with
                     | None => None
                     | Some fs_gid => Some (mkFsids (i_users ids) (i_groups ids ++ [(host_gid, fs_gid)]))
                     end
  end.
(* fs_ids_parse_line: idsconf.c:617-633 *)
Definition ids_parse_line (sec : sect) (line : bytes) (ids : fsids) : option fsids :=
  match sec with
  | SecNil => Some ids
  | SecUsers => parse_user_conf line ids
  | SecGroups => parse_group_conf line ids
  end.
(* idsconf_sec_by_name: idsconf.c:590-601 *)
Definition sec_by_name (sv : bytes) : sect :=
  if sv_isequal sv [] then SecNil
  else if sv_isequal sv s_users then SecUsers
  else if sv_isequal sv s_groups then SecGroups
  else SecNil.
(* silofs_strview_strip_any_of, .._starts_with, .._ends_with: lib/str/strview.c:675-690, 852-858, 883-889 *)
Definition sv_strip_any (set l : bytes) : bytes := sv_chop set (sv_trim set l).
Definition starts_with (c : Z) (l : bytes) : bool := match l with x :: _ => c =? x | [] => false end.
Definition ends_with (c : Z) (l : bytes) : bool := (zlen l >? 0) && (c =? last l 0).
(* cmd_parse_sec_state: idsconf.c:635-647 *)
Definition parse_sec_state (line : bytes) : sect :=
  let sv := sv_strip_ws line in
  if starts_with 91 sv && ends_with 93 sv
  then sec_by_name (sv_strip_ws (sv_strip_any [91; 93] sv))
  else SecNil.
(* one round of fs_ids_parse: idsconf.c:665-680 *)
Definition next_sec (next sec : sect) : bool := negb (sect_eqb next SecNil) && negb (sect_eqb next sec).
Definition ids_sline (sec : sect) (ids : fsids) (sline : bytes) : option (sect * fsids) :=
  if next_sec (parse_sec_state sline) sec then Some (parse_sec_state sline, ids)
  else if negb (sv_isempty sline) then
    match ids_parse_line sec sline ids with None => None | Some ids' => Some (sec, ids') end
  else Some (sec, ids).
Definition ids_line (line : bytes) (st : sect * fsids) : option (sect * fsids) :=
  ids_sline (fst st) (snd st) (sv_strip_ws (fst (sv_split_chr 35 line))).
(* fs_ids_parse: idsconf.c:649-682.  fuel: one for every line *)
Fixpoint ids_lines (fuel : nat) (pair : bytes * bytes) (st : sect * fsids) : option fsids :=
  let '(line, tail) := pair in
  if sv_isempty line && sv_isempty tail then Some (snd st)
  else match fuel with
  | O => None
  | S k => match ids_line line st with
           | None => None
           | Some st' => ids_lines k (sv_split_chr 10 tail) st'
           end
  end.
Definition ids_parse (text : bytes) : option fsids :=
  ids_lines (S (length text)) (sv_split_chr 10 text) (SecNil, NO_IDS).
(* cmd_load_idsconf_file, cmd_fs_ids_load: idsconf.c:522-557, 821-831 *)
Definition ids_load (b : bytes) : option fsids :=
  if zlen b >=? 2 ^ 20 then None
  else if negb (forallb chr_isascii b) then None
  else ids_parse (cstr b).

(* ---- writing ---- *)
(* cmd_append_section: idsconf.c:480-486 *)
Definition sec_line (name : bytes) : bytes := firstn 254 ([91] ++ name ++ [93; 10]).
(* cmd_append_id: idsconf.c:488-494 *)
Definition id_line (name : bytes) (id : Z) : bytes := firstn 510 (name ++ [32; 61; 32] ++ print_d (u32 id) ++ [10]).
(* cmd_append_user, cmd_append_group: idsconf.c:496-510 *)
Definition user_line (e : Z * Z) : option bytes :=
  match uid_to_name (fst e) NAME_BUF with Some name => Some (id_line name (snd e)) | None => None end.
Definition group_line (e : Z * Z) : option bytes :=
  match gid_to_name (snd e) NAME_BUF with Some name => Some (id_line name (fst e)) | None => None end.
Fixpoint all_lines (f : Z * Z -> option bytes) (es : list (Z * Z)) : option bytes :=
  match es with
  | [] => Some []
  | e :: r => match f e, all_lines f r with Some a, Some b => Some (a ++ b) | _, _ => None end
  end.
(* fs_ids_unparse: idsconf.c:684-704 *)
Definition ids_unparse (ids : fsids) : option bytes :=
  match all_lines user_line (i_users ids), all_lines group_line (i_groups ids) with
  | Some u, Some g => Some (sec_line s_users ++ u ++ [10] ++ sec_line s_groups ++ g ++ [10])
  | _, _ => None
  end.

(* ---- init and mkfs ---- *)
(* fs_ids_has_host_uid, .._gid: idsconf.c:718-736 *)
Definition has_host (es : list (Z * Z)) (id : Z) : bool := existsb (fun e => fst e =? id) es.
(* fs_ids_add_supgr: idsconf.c:738-761 *)
Fixpoint add_supgr (gs : list Z) (es : list (Z * Z)) : list (Z * Z) :=
  match gs with
  | [] => es
  | g :: r => if (g =? NOID) || has_host es g then add_supgr r es else add_supgr r (es ++ [(g, g)])
  end.
(* cmd_fs_ids_add_user: idsconf.c:763-779; more than 64 groups are an error *)
Definition add_user (ids : fsids) (user : bytes) (with_sup : bool) : option fsids :=
  match resolve_uidgid user with
  | None => None
  | Some (uid, gid) =>
    let gs := i_groups ids ++ [(gid, gid)] in
    let us := i_users ids ++ [(uid, uid)] in
    if with_sup then if Z.of_nat (length (grlist db user)) >? 64 then None else Some (mkFsids us (add_supgr (grlist db user) gs))
    else Some (mkFsids us gs)
  end.
(* cmd_init_setup_fs_ids: init.c:149-164; cmd_getpwuid: idsconf.c:895-901 *)
Definition init_ids (user : bytes) (with_sup with_root : bool) : option fsids :=
  match uid_to_name 0 (NAME_BUF - 1) with
  | None => None
  | Some rootname =>
    match add_user NO_IDS user with_sup with
    | None => None
    | Some ids => if with_root && negb (same_bytes rootname user) then add_user ids rootname false else Some ids
    end
  end.
(* cmd_require_uidgid: idsconf.c:868-878 *)
Definition require_uidgid (ids : fsids) (name : bytes) : option (Z * Z) :=
  match resolve_uidgid name with
  | None => None
  | Some (uid, gid) => if has_host (i_users ids) uid && has_host (i_groups ids) gid then Some (uid, gid) else None
  end.
End Db.
