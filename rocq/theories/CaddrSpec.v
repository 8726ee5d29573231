(* What a content address looks like as text, and what is read as one: apart from the model. *)
From Verif Require Import Base WalkModel RulesSpec.

Definition sound_caddr (c : caddr) : Prop :=
  length (ca_hash c) = 32%nat /\ all_bytes (ca_hash c) /\ 0 <= ca_size c < 2 ^ 32 /\
  (ca_type c = 1 \/ ca_type c = 2 \/ ca_type c = 3).
(* sizes of objects: boot records have 1 KiB, others whole KiB *)
Definition whole_size (c : caddr) : Prop :=
  ca_type c = 1 /\ ca_size c = 1024 \/
  (ca_type c = 2 \/ ca_type c = 3) /\ exists k, ca_size c = 1024 * k.

(* lower case, without needless zeros *)
Definition small_letters (s : bytes) : Prop := Forall (fun c => c < 65 \/ 90 < c) s.
Definition numeral_of (base : Z) (s : bytes) (v : Z) : Prop :=
  numeral base s v /\ small_letters s /\ (hd 0 s <> 48 \/ s = [48]).
(* two digits for every byte *)
Inductive hex_bytes : bytes -> bytes -> Prop :=
| hex_nil : hex_bytes [] []
| hex_cons c1 c2 d1 d2 h t : digit 16 c1 d1 -> digit 16 c2 d2 -> hex_bytes h t ->
    hex_bytes ((16 * d1 + d2) :: h) (c1 :: c2 :: t).

Definition intro_text : bytes := [115; 105; 108; 111; 102; 115; 46; 118]. (* silofs.v *)

(* silofs.v1.TYPE.SIZE:DIGEST *)
Definition name_of (c : caddr) (t : bytes) : Prop :=
  exists ty sz hx, t = intro_text ++ [49; 46] ++ ty ++ [46] ++ sz ++ [58] ++ hx /\
    numeral_of 10 ty (ca_type c) /\ numeral_of 16 sz (ca_size c) /\
    hex_bytes (ca_hash c) hx /\ small_letters hx.

(* what is read as a number: space, a sign, digits; too large numbers lose their upper bits *)
Definition signed (sign : bytes) (v w : Z) : Prop :=
  sign = [] /\ w = v \/ sign = [43] /\ w = v \/ sign = [45] /\ w = - v.
Definition int_field (s : bytes) (z : Z) : Prop :=
  exists sp sign ds v w, s = sp ++ sign ++ ds /\ Forall space sp /\ numeral 10 ds v /\
    signed sign v w /\ - 2 ^ 31 <= z < 2 ^ 31 /\
    exists k, z = k * 2 ^ 32 + Z.max (- 2 ^ 63) (Z.min (2 ^ 63 - 1) w).
Definition hex_field (s : bytes) (z : Z) : Prop :=
  exists sp sign pre ds v w, s = sp ++ sign ++ pre ++ ds /\ Forall space sp /\
    (pre = [] /\ numeral 16 ds v \/
     (pre = [48; 120] \/ pre = [48; 88]) /\ (numeral 16 ds v \/ ds = [] /\ v = 0)) /\
    signed sign v w /\ 0 <= z < 2 ^ 32 /\
    (v < 2 ^ 64 /\ (exists k, z = k * 2 ^ 32 + w) \/ 2 ^ 64 <= v /\ z = 2 ^ 32 - 1).

(* the whole of what is read: t is taken for c *)
Definition taken (t : bytes) (c : caddr) : Prop :=
  exists lead body trail, t = lead ++ body ++ trail /\ Forall space lead /\ Forall space trail /\
    ~ space (hd 32 body) /\ ~ space (last body 32) /\
    Forall (fun x => 0 <= x < 128) body /\ (length body < 512)%nat /\
    exists ve ty sz sp hx rest, body = intro_text ++ ve ++ [46] ++ ty ++ [46] ++ sz ++ [58] ++ sp ++ hx ++ rest /\
      int_field ve 1 /\ int_field ty (ca_type c) /\ hex_field sz (ca_size c) /\ Forall space sp /\
      hex_bytes (ca_hash c) hx /\ length (ca_hash c) = 32%nat /\ whole_size c.
