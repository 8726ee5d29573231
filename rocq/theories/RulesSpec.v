(* The file of mount rules: what its text says.  Only the record of a rule is taken from the
   model (MntModel). *)
From Verif Require Import Base MntModel.

Definition blank (c : Z) : Prop := c = 32 \/ c = 9.
Definition space (c : Z) : Prop := 9 <= c <= 13 \/ c = 32.

(* ---- lines ---- *)
Fixpoint joined (ls : list bytes) : bytes :=
  match ls with [] => [] | [l] => l | l :: r => l ++ 10 :: joined r end.

(* words with blanks between them *)
Inductive words : bytes -> list bytes -> Prop :=
| words_one w : w <> [] -> Forall (fun c => ~ blank c) w -> words w [w]
| words_more w sep b ws :
    w <> [] -> Forall (fun c => ~ blank c) w -> sep <> [] -> Forall blank sep -> words b ws ->
    words (w ++ sep ++ b) (w :: ws).

Definition comment (note : bytes) : Prop := note = [] \/ exists r, note = 35 :: r.
Definition blank_line (line : bytes) : Prop :=
  exists lead note, line = lead ++ note /\ Forall space lead /\ comment note.
(* the words of a line, without comment and the space around them *)
Record line_words (line : bytes) (ws : list bytes) : Prop := mkLineWords {
  lw_text : exists lead body trail note, line = lead ++ body ++ trail ++ note /\
    Forall space lead /\ Forall space trail /\ comment note /\ ~ In 35 body /\
    ~ space (hd 32 body) /\ ~ space (last body 32) /\ words body ws }.

(* ---- numbers ---- *)
Definition digit (base c d : Z) : Prop :=
  0 <= d < base /\ (d < 10 /\ c = 48 + d \/ 10 <= d < 36 /\ (c = 87 + d \/ c = 55 + d)).
Inductive numeral (base : Z) : bytes -> Z -> Prop :=
| numeral_one c d : digit base c d -> numeral base [c] d
| numeral_more s v c d : numeral base s v -> digit base c d -> numeral base (s ++ [c]) (v * base + d).
Definition goes_on (base : Z) (rest : bytes) : Prop := exists c r d, rest = c :: r /\ digit base c d.
(* C: 0x and hexadecimal digits, 0 and octal digits, or decimal digits; then something else *)
Inductive number : bytes -> Z -> bytes -> Prop :=
| number_dec ds v rest : numeral 10 ds v -> hd 0 ds <> 48 -> ~ goes_on 10 rest -> number (ds ++ rest) v rest
| number_oct ds v rest : numeral 8 ds v -> hd 0 ds = 48 -> ~ goes_on 8 rest ->
    (length ds = 1%nat -> forall x r, rest = x :: r -> x = 120 \/ x = 88 -> ~ goes_on 16 r) ->
    number (ds ++ rest) v rest
| number_hex x ds v rest : x = 120 \/ x = 88 -> numeral 16 ds v -> ~ goes_on 16 rest ->
    number (48 :: x :: ds ++ rest) v rest.

(* what the daemon takes for the number of a user: space, a sign, a number, and one more
   character of any kind *)
Definition uid_value (v : bytes) (u : Z) : Prop :=
  exists lead sign text n rest, v = lead ++ sign ++ text /\ (length v < 80)%nat /\
    Forall space lead /\ number text n rest /\ (length rest <= 1)%nat /\ 0 <= u <= 1073741823 /\
    (sign = [] /\ u = n \/ sign = [43] /\ u = n \/ sign = [45] /\ u = - n).
(* the number of a user as one would write it *)
Definition plain (v : bytes) (u : Z) : Prop :=
  numeral 10 v u /\ (hd 0 v <> 48 \/ v = [48]) /\ u <= 1073741823.

Inductive setting := SUid (u : Z) | SRec (b : bool).
Inductive sets : bytes -> setting -> Prop :=
| sets_uid v u : uid_value v u -> sets ([117; 105; 100; 61] ++ v) (SUid u)
| sets_on v : v = [49] \/ v = [116; 114; 117; 101] ->
    sets ([114; 101; 99; 117; 114; 115; 105; 118; 101; 61] ++ v) (SRec true)
| sets_off v : v = [48] \/ v = [102; 97; 108; 115; 101] ->
    sets ([114; 101; 99; 117; 114; 115; 105; 118; 101; 61] ++ v) (SRec false).

(* the user a line is for: that of its last setting; without one it is for all *)
Definition for_uid (ss : list setting) (u : Z) : Prop :=
  ((forall x, ~ In (SUid x) ss) /\ u = 4294967295) \/
  (exists l r, ss = l ++ SUid u :: r /\ forall x, ~ In (SUid x) r).
Definition for_rec (ss : list setting) (b : bool) : Prop :=
  ((forall x, ~ In (SRec x) ss) /\ b = false) \/
  (exists l r, ss = l ++ SRec b :: r /\ forall x, ~ In (SRec x) r).

(* where a path leads when the rules are loaded; itself if nowhere *)
Definition leads (realpath : bytes -> option bytes) (p q : bytes) : Prop :=
  realpath p = Some q \/ realpath p = None /\ q = p.

Record line_rule (realpath : bytes -> option bytes) (line : bytes) (ru : rule) : Prop := mkLineRule {
  lr_says : exists path args ss, line_words line (path :: args) /\ Forall2 sets args ss /\
    leads realpath path (ru_path ru) /\ for_uid ss (ru_uid ru) /\ for_rec ss (ru_rec ru) }.

(* one rule for every line that is not blank, in this order *)
Inductive lines_say (realpath : bytes -> option bytes) : list bytes -> list rule -> Prop :=
| say_none : lines_say realpath [] []
| say_blank l ls rs : blank_line l -> lines_say realpath ls rs -> lines_say realpath (l :: ls) rs
| say_rule l ls ru rs : line_rule realpath l ru -> lines_say realpath ls rs ->
    lines_say realpath (l :: ls) (ru :: rs).

Definition text_says (realpath : bytes -> option bytes) (text : bytes) (rs : list rule) : Prop :=
  exists ls, text = joined ls /\ Forall (fun l => ~ In 10 l) ls /\ lines_say realpath ls rs /\
    (length rs <= 1024)%nat.

(* ---- the form in mountd.conf: path, or path uid=UID ---- *)
Definition entry_line (path : bytes) (who : option Z) (line : bytes) : Prop :=
  match who with
  | None => line = path
  | Some u => exists v, plain v u /\ line = path ++ 32 :: [117; 105; 100; 61] ++ v
  end.
Definition simple_path (p : bytes) : Prop :=
  p <> [] /\ Forall (fun c => ~ space c /\ c <> 35 /\ c <> 0) p.
