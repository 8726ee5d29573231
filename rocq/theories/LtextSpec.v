(* What users of printed addresses rely on. *)
From Verif Require Import Base AddrModel.

(* the fields of an address are in the ranges that its forms on disk have *)
Record fits (a : laddr) : Prop := mkFits {
  fits_lvid : length (ls_lvid (la_lsid a)) = 16%nat /\ all_bytes (ls_lvid (la_lsid a));
  fits_lsize : 0 <= ls_lsize (la_lsid a) < 2 ^ 32;
  fits_vindex : 0 <= ls_vindex (la_lsid a) < 2 ^ 32;
  fits_vspace : 0 <= ls_vspace (la_lsid a) < 256;
  fits_height : 0 <= ls_height (la_lsid a) < 16;
  fits_ltype : 0 <= ls_ltype (la_lsid a) < 256;
  fits_pos : - 2 ^ 31 <= la_pos a < 2 ^ 31;
  fits_len : 0 <= la_len a < 2 ^ 32 }.

(* characters of a printed address: lower-case hexadecimal digits, ':' and '-' *)
Definition plain (c : Z) : Prop := 48 <= c <= 57 \/ 97 <= c <= 102 \/ c = 58 \/ c = 45.
