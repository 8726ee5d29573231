(* C03 (base64 text) and C04 (hex text). *)
From Verif Require Import Base AddrProofs Base64Model Base64Proofs AsciiModel AsciiProofs.

(* ---------- specification vocabulary ---------- *)

(* the base64 characters of RFC 4648: A-Z a-z 0-9 + / and the padding sign '=' *)
Definition base64_char (c : Z) : Prop :=
  65 <= c <= 90 \/ 97 <= c <= 122 \/ 48 <= c <= 57 \/ c = 43 \/ c = 47 \/ c = 61.

Definition hex_char (c : Z) : Prop := 48 <= c <= 57 \/ 65 <= c <= 70 \/ 97 <= c <= 102.

(* a character of ASCII text *)
Definition ascii (c : Z) : Prop := 0 <= c < 128.

Lemma tbl_base64_char : forall c, In c b64_tbl \/ c = PAD -> base64_char c.
Proof.
  intros c [H|H].
  - assert (P : forallb (fun c => ((65 <=? c) && (c <=? 90)) || ((97 <=? c) && (c <=? 122)) ||
       ((48 <=? c) && (c <=? 57)) || (c =? 43) || (c =? 47)) b64_tbl = true)
      by (vm_compute; reflexivity).
    rewrite forallb_forall in P. specialize (P c H). unfold base64_char. lia.
  - unfold base64_char, PAD in *. lia.
Qed.

Lemma hex_digits_char : forall c, In c hex_digits -> hex_char c.
Proof.
  intros c H.
  assert (P : forallb (fun c => ((48 <=? c) && (c <=? 57)) || ((65 <=? c) && (c <=? 70)) ||
     ((97 <=? c) && (c <=? 102))) hex_digits = true) by (vm_compute; reflexivity).
  rewrite forallb_forall in P. specialize (P c H). unfold hex_char. lia.
Qed.

(* ---------- C03 ---------- *)

(* Encoding fits exactly when 4 characters per started group of 3 bytes fit; the text
   consists of base64 characters only; decoding it into any buffer that can hold the
   original gives the original back and consumes the whole text. *)
Theorem C03_roundtrip : forall data room,
  all_bytes data ->
  (4 * ((zlen data + 2) / 3) <= room ->
     exists text, b64_encode data room = Some text /\
       zlen text = 4 * ((zlen data + 2) / 3) /\ Forall base64_char text /\
       forall buf, zlen data <= buf ->
         b64_decode text buf = mkRes DOk data (zlen text)) /\
  (room < 4 * ((zlen data + 2) / 3) -> b64_encode data room = None).
Proof.
  intros data room Hb.
  pose proof (b64_groups_len_gen (length data) data ltac:(lia)) as HL.
  unfold b64_encode, b64_encode_len in *. split; intros Hr.
  - exists (b64_encode_groups data).
    replace (room <? (zlen data + 2) / 3 * 4) with false by lia.
    split; [reflexivity|]. split; [lia|]. split.
    + eapply Forall_impl; [|apply (b64_groups_alpha_gen (length data)); lia].
      intros c Hc. apply tbl_base64_char. exact Hc.
    + intros buf Hbuf. unfold b64_decode.
      rewrite (b64_rt_gen (length data) data ltac:(lia) Hb).
      * reflexivity.
      * unfold zlen at 1. cbn [length]. lia.
  - replace (room <? (zlen data + 2) / 3 * 4) with true by lia. reflexivity.
Qed.
Example C03_roundtrip_ex :
  b64_encode [102; 111; 111; 98] 8 = Some [90; 109; 57; 118; 89; 103; 61; 61] /\
  b64_decode [90; 109; 57; 118; 89; 103; 61; 61] 4 = mkRes DOk [102; 111; 111; 98] 8.
Proof. vm_compute. auto. Qed.
Print Assumptions C03_roundtrip.

(* Two different byte strings never have the same text. *)
Theorem C03_injective : forall d1 d2 r1 r2 t,
  all_bytes d1 -> all_bytes d2 ->
  b64_encode d1 r1 = Some t -> b64_encode d2 r2 = Some t -> d1 = d2.
Proof.
  intros d1 d2 r1 r2 t H1 H2 E1 E2.
  assert (G : forall d r, all_bytes d -> b64_encode d r = Some t ->
    forall buf, zlen d <= buf -> r_out (b64_decode t buf) = d).
  { intros d r Hd E buf Hbuf. destruct (C03_roundtrip d r Hd) as [A B].
    assert (L : 4 * ((zlen d + 2) / 3) <= r \/ r < 4 * ((zlen d + 2) / 3)) by lia.
    destruct L as [L|L].
    - destruct (A L) as (t' & E' & _ & _ & D). rewrite E in E'. inversion E'; subst t'.
      rewrite (D buf Hbuf). reflexivity.
    - rewrite (B L) in E. discriminate. }
  pose proof (zlen_nonneg _ d1). pose proof (zlen_nonneg _ d2).
  rewrite <- (G d1 r1 H1 E1 (zlen d1 + zlen d2)) by lia.
  apply (G d2 r2 H2 E2). lia.
Qed.
Example C03_injective_ex : b64_encode [0] 4 <> b64_encode [0; 0] 4.
Proof. vm_compute. discriminate. Qed.
Print Assumptions C03_injective.

(* Arbitrary ASCII text: the decoder never reads outside its table, never writes more
   than the buffer holds, never reads past the text, and accepts only text whose
   consumed part consists of base64 characters. *)
Theorem C03_hostile_ascii : forall text buf,
  Forall ascii text -> 0 <= buf ->
  let r := b64_decode text buf in
  r_st r <> DOutOfBounds /\ zlen (r_out r) <= buf /\ 0 <= r_inrd r <= zlen text /\
  (r_st r = DOk -> Forall base64_char (firstn (Z.to_nat (r_inrd r)) text)).
Proof.
  intros text buf Ht Hbuf r.
  destruct (b64_loop_safe text buf [] 0 [] 0 Ht Hbuf) as (A & B & C);
    try (unfold zlen; cbn [length]; lia).
  fold (b64_decode text buf) in A, B, C. fold r in A, B, C.
  split; [exact A|]. split; [exact B|]. split; [lia|].
  intros E. destruct (b64_loop_alpha text buf [] 0 [] 0 E) as [P _].
  fold (b64_decode text buf) in P. fold r in P. rewrite Z.sub_0_r in P.
  eapply Forall_impl; [|exact P]. intros c Hc. apply tbl_base64_char. exact Hc.
Qed.
Example C03_hostile_ascii_ex :
  Forall ascii [90; 109; 33; 118] /\ r_st (b64_decode [90; 109; 33; 118] 100) = DInval.
Proof. split; [repeat constructor; unfold ascii; lia|]. vm_compute. reflexivity. Qed.
Print Assumptions C03_hostile_ascii.

(* Finding: the full claim is for every text, but a byte >= 0x80 is a negative char and
   is used as a (negative) table index: base64.c:79-93 checks only the upper end. *)
Theorem C03_hostile_text_refuted :
  exists text buf, Forall (fun c => -128 <= c < 128) text /\ 0 <= buf /\
    r_st (b64_decode text buf) = DOutOfBounds.
Proof.
  exists [65; -61; -87; 65], 16. split; [repeat constructor; lia|].
  split; [lia|]. vm_compute. reflexivity.
Qed.
Print Assumptions C03_hostile_text_refuted.

(* ---------- C04 ---------- *)

Theorem C04_roundtrip : forall data room buf,
  all_bytes data -> 2 * zlen data <= room -> zlen data <= buf ->
  let text := mem_to_ascii data 0 room in
  zlen text = 2 * zlen data /\ ascii_to_mem text 0 buf = (data, true).
Proof.
  intros data room buf Hb Hr Hbuf text. split.
  - apply mem_to_ascii_len. lia.
  - apply mem_rt; auto; lia.
Qed.
Example C04_roundtrip_ex :
  mem_to_ascii [0; 171; 255] 0 6 = [48; 48; 97; 98; 102; 102] /\
  ascii_to_mem [48; 48; 65; 98; 102; 70] 0 3 = ([0; 171; 255], true).
Proof. vm_compute. auto. Qed.
Print Assumptions C04_roundtrip.

(* the writer never exceeds the room it is given *)
Theorem C04_bounded : forall data room, 0 <= room -> zlen (mem_to_ascii data 0 room) <= room.
Proof. intros data room H. pose proof (mem_to_ascii_bound data 0 room H). lia. Qed.
Example C04_bounded_ex : zlen (mem_to_ascii [1; 2; 3] 0 5) = 4.
Proof. reflexivity. Qed.
Print Assumptions C04_bounded.

(* Text is accepted only if each character of every complete pair that was converted is
   a hex digit; when the buffer has room to spare, that is every pair of the text. *)
Theorem C04_rejects : forall text buf m,
  ascii_to_mem text 0 buf = (m, true) ->
  Forall hex_char (firstn (2 * length m) text) /\
  (zlen m < buf -> (length text <= 2 * length m + 1)%nat).
Proof.
  intros text buf m H.
  destruct (ascii_to_mem_reject (length text) text 0 buf m ltac:(lia) H) as [A B].
  split.
  - eapply Forall_impl; [|exact A]. apply hex_digits_char.
  - intros L. apply B. lia.
Qed.
Example C04_rejects_ex : ascii_to_mem [48; 103] 0 4 = ([], false).
Proof. reflexivity. Qed.
Print Assumptions C04_rejects.

(* Finding: a lone last character is dropped without being looked at, so a text that
   contains a non-hex character can be accepted (ascii.c:191, "i + 1 < asz"). *)
Theorem C04_rejects_all_refuted :
  exists text m, ascii_to_mem text 0 16 = (m, true) /\ ~ Forall hex_char text.
Proof.
  exists [48; 49; 33], [1]. split; [reflexivity|]. intros H.
  inversion H as [|? ? _ H1]; subst. inversion H1 as [|? ? _ H2]; subst.
  inversion H2 as [|? ? H3 _]; subst. unfold hex_char in H3. lia.
Qed.
Print Assumptions C04_rejects_all_refuted.

(* 64-bit numbers: 16 digits, and back *)
Theorem C04_uint64 : forall v, 0 <= v < 2 ^ 64 ->
  length (uint64_to_ascii v) = 16%nat /\ ascii_to_uint64 (uint64_to_ascii v) = Some v.
Proof.
  intros v Hv. split; [reflexivity|]. unfold ascii_to_uint64, uint64_to_ascii.
  change (2 ^ 64) with 18446744073709551616 in *.
  assert (E : v mod 2 ^ (8 * Z.of_nat 8) = v).
  { change (2 ^ (8 * Z.of_nat 8)) with 18446744073709551616. apply Z.mod_small. lia. }
  rewrite u64_rt_gen; try lia. rewrite E. f_equal.
Qed.
Example C04_uint64_ex : ascii_to_uint64 (uint64_to_ascii 81985529216486895) = Some 81985529216486895.
Proof. vm_compute. reflexivity. Qed.
Print Assumptions C04_uint64.
