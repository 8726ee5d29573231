(* Base64 encoder and decoder, lib/infra/base64.c.  Characters are their codes;
   char is signed (as on x86), so a text byte >= 0x80 is a negative code. *)
From Verif Require Import Base.

(* base64_encode_tbl, lib/infra/base64.c:31-32 : A-Z a-z 0-9 + / *)
Definition b64_tbl : list Z :=
  map Z.of_nat (seq 65 26 ++ seq 97 26 ++ seq 48 10 ++ [43; 47]%nat).

(* base64_decode_tbl, lib/infra/base64.c:34-67: 123 entries ('z' + 1), value + 64 for
   alphabet characters and 0 elsewhere *)
Definition B64_NELEMS := 123.
Definition b64_dtbl (chr : Z) : Z :=
  if (65 <=? chr) && (chr <=? 90) then chr - 65 + 64
  else if (97 <=? chr) && (chr <=? 122) then chr - 97 + 26 + 64
  else if (48 <=? chr) && (chr <=? 57) then chr - 48 + 52 + 64
  else if chr =? 43 then 62 + 64
  else if chr =? 47 then 63 + 64
  else 0.

Definition PAD := 61. (* '=' *)

(* base64_encode_sext, lib/infra/base64.c:69-72 *)
Definition enc_sext (sext : Z) : Z := nth (Z.to_nat (Z.land (u8 sext) 63)) b64_tbl 0.

Inductive sext_res := SOk (s : Z) | SInval | SOutOfBounds.

(* base64_decode_sext, lib/infra/base64.c:79-93; a negative index reads before the
   table: out of bounds *)
Definition dec_sext (chr : Z) : sext_res :=
  if B64_NELEMS <=? chr then SInval
  else if chr <? 0 then SOutOfBounds
  else let s := b64_dtbl chr - 64 in
       if (s <? 0) || (63 <? s) then SInval else SOk (u8 s).

(* base64_encode_head (lib/infra/base64.c:95-114) for the whole groups of three,
   base64_encode_tail (116-150) for the one or two left-over bytes *)
Fixpoint b64_encode_groups (inb : bytes) : list Z :=
  match inb with
  | b0 :: b1 :: b2 :: r =>
    enc_sext (Z.shiftr b0 2) ::
    enc_sext (Z.shiftl b0 4 + Z.shiftr b1 4) ::
    enc_sext (Z.shiftl b1 2 + Z.shiftr b2 6) ::
    enc_sext b2 :: b64_encode_groups r
  | [b0; b1] =>
    [enc_sext (Z.shiftr b0 2); enc_sext (Z.shiftl b0 4 + Z.shiftr b1 4);
     enc_sext (Z.shiftl b1 2 + 0); PAD]
  | [b0] => [enc_sext (Z.shiftr b0 2); enc_sext (Z.shiftl b0 4 + 0); PAD; PAD]
  | [] => []
  end.

(* BASE64_ENCODE_LEN, lib/infra/base64.c:27 *)
Definition b64_encode_len (n : Z) : Z := (n + 2) / 3 * 4.

(* silofs_base64_encode, lib/infra/base64.c:152-181; None is -EINVAL.  The optional
   terminating NUL is not part of the returned length and is left out. *)
Definition b64_encode (inb : bytes) (outmax : Z) : option (list Z) :=
  if outmax <? b64_encode_len (zlen inb) then None else Some (b64_encode_groups inb).

(* base64_decode_sextets, lib/infra/base64.c:183-195; sx has at least cnt+1 entries *)
Definition dec_sextets (sx : list Z) (cnt : nat) : bytes :=
  let s i := nth i sx 0 in
  firstn cnt [ u8 (Z.lor (Z.shiftl (s 0%nat) 2) (Z.shiftr (s 1%nat) 4));
               u8 (Z.lor (Z.shiftl (s 1%nat) 4) (Z.shiftr (s 2%nat) 2));
               u8 (Z.lor (Z.shiftl (s 2%nat) 6) (s 3%nat)) ].

Inductive b64_status := DOk | DInval | DOutOfBounds.

(* result: status, bytes written to the output buffer, input characters consumed *)
Record b64_res := mkRes { r_st : b64_status; r_out : bytes; r_inrd : Z }.

(* the code after the loop, lib/infra/base64.c:231-247 *)
Definition b64_finish (max : Z) (sx : list Z) (out : bytes) (cnt : Z) : b64_res :=
  match sx with
  | [] => mkRes DOk out cnt
  | _ => if max <? zlen out + zlen sx - 1 then mkRes DInval out cnt
         else mkRes DOk (out ++ dec_sextets sx (length sx - 1)) cnt
  end.

(* the loop (209-230) of silofs_base64_decode, lib/infra/base64.c:197-247 *)
Fixpoint b64_loop (inp : list Z) (max : Z) (sx : list Z) (npads : Z) (out : bytes) (cnt : Z)
  : b64_res :=
  match inp with
  | [] => b64_finish max sx out cnt
  | chr :: r =>
    if (zlen out <? max) && (npads <? 2) then
      if chr =? PAD then b64_loop r max sx (npads + 1) out (cnt + 1)
      else if 0 <? npads then b64_finish max sx out cnt
      else match dec_sext chr with
        | SInval => mkRes DInval out cnt
        | SOutOfBounds => mkRes DOutOfBounds out cnt
        | SOk s =>
          let sx' := sx ++ [s] in
          if max <? zlen out + zlen sx' - 1 then mkRes DInval out cnt
          else if zlen sx' =? 4
               then b64_loop r max [] npads (out ++ dec_sextets sx' 3) (cnt + 1)
               else b64_loop r max sx' npads out (cnt + 1)
        end
    else b64_finish max sx out cnt
  end.

(* silofs_base64_decode, lib/infra/base64.c:197-247 *)
Definition b64_decode (inp : list Z) (max : Z) : b64_res := b64_loop inp max [] 0 [] 0.
