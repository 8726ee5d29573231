(* fsids.conf: what its text says.  From the model only the records of ids and of the databases
   are taken. *)
From Verif Require Import Base MntModel RulesSpec IdconfModel.

(* a line without its comment and the space around *)
Definition line_body (line b : bytes) : Prop :=
  exists lead trail note, line = lead ++ b ++ trail ++ note /\
    Forall space lead /\ Forall space trail /\ comment note /\ ~ In 35 b /\
    (b = [] \/ ~ space (hd 32 b) /\ ~ space (last b 32)).
Definition bracket (c : Z) : Prop := c = 91 \/ c = 93.
Definition title (s : sect) (name : bytes) : Prop :=
  s = SecUsers /\ name = [117; 115; 101; 114; 115] \/ s = SecGroups /\ name = [103; 114; 111; 117; 112; 115].
(* [users] or [groups]; more brackets and space inside are allowed *)
Definition header (b : bytes) (s : sect) : Prop :=
  exists l lead name trail r, b = l ++ lead ++ name ++ trail ++ r /\ hd 0 l = 91 /\ last r 0 = 93 /\
    Forall bracket l /\ Forall bracket r /\ Forall space lead /\ Forall space trail /\ title s name.
(* the text of a name or a number: no space at its ends *)
Definition token (t : bytes) : Prop := ~ space (hd 32 t) /\ ~ space (last t 32).
(* name = value *)
Definition entry (b name value : bytes) : Prop :=
  exists s1 s2, b = name ++ s1 ++ 61 :: s2 ++ value /\ Forall space s1 /\ Forall space s2 /\
    token name /\ token value /\ ~ In 61 name.
Definition id_value (v : bytes) (u : Z) : Prop := (length v < 64)%nat /\ uid_value v u.

(* the user and group with that name, if the entry takes at most 1024 bytes *)
Definition user_named (db : userdb) (name : bytes) (u : Z) : Prop :=
  (length name < 256)%nat /\ exists e, pwnam db name = Some e /\ pw_need e <= 1024 /\ pw_uid e = u.
Definition group_named (db : userdb) (name : bytes) (g : Z) : Prop :=
  (length name < 256)%nat /\ exists e, grnam db name = Some e /\ gr_need e <= 1024 /\ gr_gid e = g.

(* what the lines say, in the section cur: pairs of host id and file system id *)
Inductive lines_ids (db : userdb) : sect -> list bytes -> list (Z * Z) -> list (Z * Z) -> Prop :=
| li_end cur : lines_ids db cur [] [] []
| li_blank cur l ls us gs : line_body l [] -> lines_ids db cur ls us gs -> lines_ids db cur (l :: ls) us gs
| li_head cur l ls us gs b s : line_body l b -> header b s -> s <> cur ->
    lines_ids db s ls us gs -> lines_ids db cur (l :: ls) us gs
| li_none l ls us gs b : line_body l b -> b <> [] -> (forall s, ~ header b s) ->
    lines_ids db SecNil ls us gs -> lines_ids db SecNil (l :: ls) us gs
| li_user l ls us gs b name value fs host : line_body l b -> entry b name value ->
    user_named db name fs -> id_value value host ->
    lines_ids db SecUsers ls us gs -> lines_ids db SecUsers (l :: ls) ((host, fs) :: us) gs
| li_group l ls us gs b name value host fs : line_body l b -> entry b name value ->
    group_named db name host -> id_value value fs ->
    lines_ids db SecGroups ls us gs -> lines_ids db SecGroups (l :: ls) us ((host, fs) :: gs).

(* the whole file: the text up to a NUL *)
Definition file_says (db : userdb) (b : bytes) (ids : fsids) : Prop :=
  Z.of_nat (length b) < 1048576 /\ Forall (fun c => 0 <= c < 128) b /\
  exists text rest ls, b = text ++ rest /\ ~ In 0 text /\ (rest = [] \/ exists r, rest = 0 :: r) /\
    text = joined ls /\ Forall (fun l => ~ In 10 l) ls /\
    lines_ids db SecNil ls (i_users ids) (i_groups ids).

(* ---- databases and names as they should be ---- *)
(* names that can stand in the file *)
Definition plain_name (n : bytes) : Prop :=
  token n /\ (length n < 255)%nat /\ Forall (fun c => 0 < c < 128 /\ c <> 10 /\ c <> 35 /\ c <> 61) n.
(* a user found by number is found by name, and so for groups *)
Definition sound_db (db : userdb) : Prop :=
  (forall u e, pwuid db u = Some e -> exists e', pwnam db (pw_name e) = Some e' /\ pw_uid e' = u /\ pw_need e' = pw_need e) /\
  (forall g e, grgid db g = Some e -> exists e', grnam db (gr_name e) = Some e' /\ gr_gid e' = g /\ gr_need e' = gr_need e).
Definition known_user (db : userdb) (u : Z) : Prop :=
  exists e, pwuid db u = Some e /\ plain_name (pw_name e) /\ pw_need e <= 1024.
Definition known_group (db : userdb) (g : Z) : Prop :=
  exists e, grgid db g = Some e /\ plain_name (gr_name e) /\ gr_need e <= 1024.
(* all that init looks up for a user: their own entry and group, and the groups they are in;
   numbers up to 2^30 *)
Definition well_known (db : userdb) (name : bytes) : Prop :=
  (forall e, pwnam db name = Some e -> known_user db (pw_uid e) /\ known_group db (pw_gid e) /\
     0 <= pw_uid e < 1073741824 /\ 0 <= pw_gid e < 1073741824) /\
  (forall g, In g (grlist db name) -> g <> 4294967295 -> known_group db g /\ 0 <= g < 1073741824).
Definition swap (e : Z * Z) : Z * Z := (snd e, fst e).
