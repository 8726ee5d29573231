From Verif Require Import Base AddrProofs Base64Model.


Lemma all_small : forall (n : nat) (P : Z -> bool),
  forallb P (map Z.of_nat (seq 0 n)) = true -> forall x, 0 <= x < Z.of_nat n -> P x = true.
Proof.
  intros n P H x Hx. rewrite forallb_forall in H. apply H.
  apply in_map_iff. exists (Z.to_nat x). split; [lia|]. apply in_seq. lia.
Qed.

Definition sext_ok (s : Z) : bool :=
  match dec_sext (nth (Z.to_nat s) b64_tbl 0) with SOk v => v =? s | _ => false end &&
  negb (nth (Z.to_nat s) b64_tbl 0 =? PAD).

Lemma sext_table : forall s, 0 <= s < 64 ->
  dec_sext (nth (Z.to_nat s) b64_tbl 0) = SOk s /\ nth (Z.to_nat s) b64_tbl 0 <> PAD.
Proof.
  intros s Hs.
  assert (H : sext_ok s = true).
  { apply (all_small 64); [vm_compute; reflexivity|]. simpl. lia. }
  unfold sext_ok in H. apply andb_true_iff in H. destruct H as [H1 H2].
  split.
  - destruct (dec_sext _); try discriminate. f_equal. lia.
  - intros E. rewrite E in H2. discriminate.
Qed.

Lemma land_63 : forall x, Z.land (u8 x) 63 = x mod 64.
Proof.
  intros. change 63 with (Z.ones 6). rewrite Z.land_ones by lia. unfold u8.
  change (2 ^ 6) with 64. change (2 ^ 8) with 256. lia.
Qed.

Lemma dec_enc_sext : forall x, dec_sext (enc_sext x) = SOk (x mod 64) /\ enc_sext x <> PAD.
Proof.
  intros. unfold enc_sext. rewrite land_63. apply sext_table. apply Z.mod_pos_bound. lia.
Qed.

Lemma enc_sext_in : forall x, In (enc_sext x) b64_tbl.
Proof.
  intros. unfold enc_sext. rewrite land_63. apply nth_In.
  change (length b64_tbl) with 64%nat. pose proof (Z.mod_pos_bound x 64). lia.
Qed.

(* joining two adjacent 6-bit fields *)
Lemma join_bits : forall s t k m,
  0 <= k -> 0 <= m -> 0 <= t < 2 ^ k * 2 ^ m -> 0 <= s ->
  u8 (Z.lor (Z.shiftl s k) (Z.shiftr t m)) = (s * 2 ^ k + t / 2 ^ m) mod 256.
Proof.
  intros s t k m Hk Hm Ht Hs. unfold u8. rewrite Z.lor_comm.
  rewrite shiftr_div by lia.
  rewrite lor_shiftl_add; auto.
  - f_equal. lia.
  - split; [apply Z.div_pos; lia|apply Z.div_lt_upper_bound; lia].
Qed.

Lemma dec_sextets_vals : forall s0 s1 s2 s3,
  0 <= s0 < 64 -> 0 <= s1 < 64 -> 0 <= s2 < 64 -> 0 <= s3 < 64 ->
  dec_sextets [s0; s1; s2; s3] 3 =
  [ (s0 * 4 + s1 / 16) mod 256; (s1 * 16 + s2 / 4) mod 256; (s2 * 64 + s3) mod 256 ].
Proof.
  intros s0 s1 s2 s3 H0 H1 H2 H3. unfold dec_sextets. cbn [nth firstn].
  rewrite (join_bits s0 s1 2 4), (join_bits s1 s2 4 2) by (simpl; lia).
  change (2 ^ 4) with 16. change (2 ^ 2) with 4.
  repeat f_equal. replace s3 with (Z.shiftr s3 0) at 1 by apply Z.shiftr_0_r.
  rewrite (join_bits s2 s3 6 0) by (simpl; lia).
  change (2 ^ 0) with 1. change (2 ^ 6) with 64. rewrite Z.div_1_r. reflexivity.
Qed.

Lemma dec_sextets_2 : forall s0 s1 s2,
  0 <= s0 < 64 -> 0 <= s1 < 64 -> 0 <= s2 < 64 ->
  dec_sextets [s0; s1; s2] 2 = [ (s0 * 4 + s1 / 16) mod 256; (s1 * 16 + s2 / 4) mod 256 ].
Proof.
  intros s0 s1 s2 H0 H1 H2. unfold dec_sextets. cbn [nth firstn].
  rewrite (join_bits s0 s1 2 4), (join_bits s1 s2 4 2) by (simpl; lia). reflexivity.
Qed.

Lemma dec_sextets_1 : forall s0 s1,
  0 <= s0 < 64 -> 0 <= s1 < 64 ->
  dec_sextets [s0; s1] 1 = [ (s0 * 4 + s1 / 16) mod 256 ].
Proof.
  intros s0 s1 H0 H1. unfold dec_sextets. cbn [nth firstn].
  rewrite (join_bits s0 s1 2 4) by (simpl; lia). reflexivity.
Qed.

Lemma sh2 : forall b, Z.shiftr b 2 = b / 4. Proof. intros. rewrite shiftr_div by lia. reflexivity. Qed.
Lemma sh4 : forall b, Z.shiftr b 4 = b / 16. Proof. intros. rewrite shiftr_div by lia. reflexivity. Qed.
Lemma sh6 : forall b, Z.shiftr b 6 = b / 64. Proof. intros. rewrite shiftr_div by lia. reflexivity. Qed.
Lemma sl4 : forall b, Z.shiftl b 4 = b * 16. Proof. intros. rewrite Z.shiftl_mul_pow2 by lia. reflexivity. Qed.
Lemma sl2 : forall b, Z.shiftl b 2 = b * 4. Proof. intros. rewrite Z.shiftl_mul_pow2 by lia. reflexivity. Qed.

(* one ordinary character *)
Lemma loop_char : forall x r max sx out cnt,
  zlen out < max -> zlen out + zlen sx <= max -> zlen sx < 3 ->
  b64_loop (enc_sext x :: r) max sx 0 out cnt =
  b64_loop r max (sx ++ [x mod 64]) 0 out (cnt + 1).
Proof.
  intros x r max sx out cnt Ho Hs Hl. cbn [b64_loop].
  destruct (dec_enc_sext x) as [D N].
  replace (zlen out <? max) with true by lia. cbn [andb Z.ltb Z.compare].
  replace (enc_sext x =? PAD) with false by lia. rewrite D.
  rewrite zlen_app. change (zlen [x mod 64]) with 1. pose proof (zlen_nonneg _ sx).
  replace (max <? zlen out + (zlen sx + 1) - 1) with false by lia.
  replace (zlen sx + 1 =? 4) with false by lia. reflexivity.
Qed.

Lemma loop_char4 : forall x r max a b c out cnt,
  zlen out < max -> zlen out + 3 <= max ->
  b64_loop (enc_sext x :: r) max [a; b; c] 0 out cnt =
  b64_loop r max [] 0 (out ++ dec_sextets [a; b; c; x mod 64] 3) (cnt + 1).
Proof.
  intros x r max a b c out cnt Ho Hs. cbn [b64_loop].
  destruct (dec_enc_sext x) as [D N].
  replace (zlen out <? max) with true by lia. cbn [andb Z.ltb Z.compare].
  replace (enc_sext x =? PAD) with false by lia. rewrite D.
  cbn [app]. change (zlen [a; b; c; x mod 64]) with 4.
  replace (max <? zlen out + 4 - 1) with false by lia. reflexivity.
Qed.

Lemma loop_pad : forall r max sx np out cnt,
  zlen out < max -> np < 2 ->
  b64_loop (PAD :: r) max sx np out cnt = b64_loop r max sx (np + 1) out (cnt + 1).
Proof.
  intros. cbn [b64_loop].
  replace (zlen out <? max) with true by lia. replace (np <? 2) with true by lia. reflexivity.
Qed.

Lemma mod64 : forall x, 0 <= x mod 64 < 64.
Proof. intros. apply Z.mod_pos_bound. lia. Qed.

Lemma finish_2 : forall max a b out cnt, zlen out + 1 <= max ->
  b64_finish max [a; b] out cnt = mkRes DOk (out ++ dec_sextets [a; b] 1) cnt.
Proof.
  intros. unfold b64_finish. change (zlen [a; b]) with 2.
  replace (max <? zlen out + 2 - 1) with false by lia. reflexivity.
Qed.
Lemma finish_3 : forall max a b c out cnt, zlen out + 2 <= max ->
  b64_finish max [a; b; c] out cnt = mkRes DOk (out ++ dec_sextets [a; b; c] 2) cnt.
Proof.
  intros. unfold b64_finish. change (zlen [a; b; c]) with 3.
  replace (max <? zlen out + 3 - 1) with false by lia. reflexivity.
Qed.

Lemma b64_rt_gen : forall n x, (length x <= n)%nat -> all_bytes x ->
  forall max out cnt, zlen out + zlen x <= max ->
  b64_loop (b64_encode_groups x) max [] 0 out cnt =
  mkRes DOk (out ++ x) (cnt + zlen (b64_encode_groups x)).
Proof.
  induction n as [|n IH]; intros x Hn Hb max out cnt Hm.
  - destruct x; [|simpl in Hn; lia]. cbn. rewrite app_nil_r, Z.add_0_r. reflexivity.
  - destruct x as [|b0 [|b1 [|b2 r]]]; unfold all_bytes in Hb.
    + cbn. rewrite app_nil_r, Z.add_0_r. reflexivity.
    + inversion Hb as [|? ? B0 _]; subst. unfold is_byte in B0.
      change (zlen [b0]) with 1 in Hm. pose proof (zlen_nonneg _ out).
      cbn [b64_encode_groups].
      rewrite loop_char by (change (zlen (@nil Z)) with 0; lia).
      rewrite loop_char by (cbn [app]; change (zlen [Z.shiftr b0 2 mod 64]) with 1; lia).
      rewrite loop_pad by lia. rewrite loop_pad by lia.
      cbn [app b64_loop]. rewrite finish_2 by lia.
      rewrite dec_sextets_1 by apply mod64.
      f_equal; [|unfold zlen; cbn [length]; lia]. f_equal. f_equal.
      rewrite sh2, sl4. lia.
    + inversion Hb as [|? ? B0 Hb1]; subst. inversion Hb1 as [|? ? B1 _]; subst.
      unfold is_byte in B0, B1.
      change (zlen [b0; b1]) with 2 in Hm. pose proof (zlen_nonneg _ out).
      cbn [b64_encode_groups].
      rewrite loop_char by (change (zlen (@nil Z)) with 0; lia).
      rewrite loop_char by (cbn [app]; change (zlen [Z.shiftr b0 2 mod 64]) with 1; lia).
      rewrite loop_char by (cbn [app]; unfold zlen in *; cbn [length]; lia).
      rewrite loop_pad by lia.
      cbn [app b64_loop]. rewrite finish_3 by lia.
      rewrite dec_sextets_2 by apply mod64.
      f_equal; [|unfold zlen; cbn [length]; lia]. f_equal.
      rewrite sh2, sl4, sh4, sl2. f_equal; [lia|f_equal; lia].
    + inversion Hb as [|? ? B0 Hb1]; subst. inversion Hb1 as [|? ? B1 Hb2]; subst.
      inversion Hb2 as [|? ? B2 Hr]; subst. unfold is_byte in B0, B1, B2.
      assert (Z3 : zlen (b0 :: b1 :: b2 :: r) = 3 + zlen r) by (unfold zlen; cbn [length]; lia).
      pose proof (zlen_nonneg _ out). pose proof (zlen_nonneg _ r).
      cbn [b64_encode_groups].
      rewrite loop_char by (change (zlen (@nil Z)) with 0; lia).
      rewrite loop_char by (cbn [app]; change (zlen [Z.shiftr b0 2 mod 64]) with 1; lia).
      rewrite loop_char by (cbn [app]; unfold zlen in *; cbn [length] in *; lia).
      cbn [app]. rewrite loop_char4 by lia.
      rewrite dec_sextets_vals by apply mod64.
      rewrite IH.
      * f_equal; [|unfold zlen; cbn [length]; lia].
        rewrite <- app_assoc. f_equal. cbn [app].
        rewrite sh2, sl4, sh4, sl2, sh6. f_equal; [lia|]. f_equal; [lia|]. f_equal. lia.
      * cbn [length] in Hn. lia.
      * exact Hr.
      * rewrite zlen_app. match goal with |- context [zlen (?a :: ?l)] => change (zlen (a :: l)) with 3 end. lia.
Qed.

Lemma b64_groups_len_gen : forall n x, (length x <= n)%nat ->
  zlen (b64_encode_groups x) = b64_encode_len (zlen x).
Proof.
  induction n as [|n IH]; intros x Hn.
  - destruct x; [reflexivity|simpl in Hn; lia].
  - destruct x as [|b0 [|b1 [|b2 r]]]; try reflexivity.
    cbn [b64_encode_groups]. cbn [length] in Hn.
    assert (E : zlen (b64_encode_groups r) = b64_encode_len (zlen r)) by (apply IH; lia).
    unfold zlen in *. cbn [length]. unfold b64_encode_len in *. lia.
Qed.

Lemma b64_groups_alpha_gen : forall n x, (length x <= n)%nat ->
  Forall (fun c => In c b64_tbl \/ c = PAD) (b64_encode_groups x).
Proof.
  induction n as [|n IH]; intros x Hn.
  - destruct x; [constructor|simpl in Hn; lia].
  - destruct x as [|b0 [|b1 [|b2 r]]]; cbn [b64_encode_groups];
      repeat (constructor; [first [left; apply enc_sext_in | right; reflexivity]|]); try constructor.
    apply IH. cbn [length] in Hn. lia.
Qed.

(* ---- hostile input ---- *)

Lemma dec_sextets_len : forall sx c, (c <= 3)%nat -> zlen (dec_sextets sx c) = Z.of_nat c.
Proof.
  intros. unfold zlen, dec_sextets. rewrite firstn_length. f_equal. cbn [length]. lia.
Qed.

Lemma b64_loop_safe : forall inp max sx np out cnt,
  Forall (fun c => 0 <= c < 128) inp ->
  0 <= max -> zlen out <= max -> zlen sx < 4 -> 0 <= cnt ->
  r_st (b64_loop inp max sx np out cnt) <> DOutOfBounds /\
  zlen (r_out (b64_loop inp max sx np out cnt)) <= max /\
  cnt <= r_inrd (b64_loop inp max sx np out cnt) <= cnt + zlen inp.
Proof.
  assert (F : forall max sx out cnt n, zlen out <= max -> zlen sx < 4 -> 0 <= n ->
    r_st (b64_finish max sx out cnt) <> DOutOfBounds /\
    zlen (r_out (b64_finish max sx out cnt)) <= max /\
    cnt <= r_inrd (b64_finish max sx out cnt) <= cnt + n).
  { intros max sx out cnt n Ho Hs Hn. unfold b64_finish. destruct sx as [|a sx'].
    - cbn. split; [discriminate|lia].
    - destruct (max <? zlen out + zlen (a :: sx') - 1) eqn:E; cbn [r_st r_out r_inrd].
      + split; [discriminate|lia].
      + split; [discriminate|]. rewrite zlen_app.
        rewrite dec_sextets_len by (unfold zlen in Hs; cbn [length] in *; lia).
        unfold zlen in *. cbn [length] in *. lia. }
  induction inp as [|c r IH]; intros max sx np out cnt Hc Hm Ho Hs Hn.
  - cbn [b64_loop]. change (zlen (@nil Z)) with 0. apply F; auto. lia.
  - inversion Hc as [|? ? C0 Cr]; subst. cbn [b64_loop].
    assert (L : zlen (c :: r) = 1 + zlen r) by (unfold zlen; cbn [length]; lia).
    pose proof (zlen_nonneg _ r) as Lr. rewrite L.
    destruct ((zlen out <? max) && (np <? 2)) eqn:G; [|apply F; auto; lia].
    destruct (c =? PAD).
    { specialize (IH max sx (np + 1) out (cnt + 1) Cr Hm Ho Hs ltac:(lia)).
      destruct IH as (I1 & I2 & I3). split; auto. split; auto. lia. }
    destruct (0 <? np); [apply F; auto; lia|].
    destruct (dec_sext c) as [s| |] eqn:D.
    + cbv zeta. destruct (max <? zlen out + zlen (sx ++ [s]) - 1) eqn:E.
      { cbn [r_st r_out r_inrd]. split; [discriminate|lia]. }
      destruct (zlen (sx ++ [s]) =? 4) eqn:E4.
      * assert (O : zlen (out ++ dec_sextets (sx ++ [s]) 3) <= max).
        { rewrite zlen_app, dec_sextets_len by lia. lia. }
        specialize (IH max [] np (out ++ dec_sextets (sx ++ [s]) 3) (cnt + 1) Cr Hm O
          ltac:(reflexivity) ltac:(lia)).
        destruct IH as (I1 & I2 & I3). split; auto. split; auto. lia.
      * assert (S : zlen (sx ++ [s]) < 4).
        { rewrite zlen_app in *. change (zlen [s]) with 1 in *. lia. }
        specialize (IH max (sx ++ [s]) np out (cnt + 1) Cr Hm Ho S ltac:(lia)).
        destruct IH as (I1 & I2 & I3). split; auto. split; auto. lia.
    + cbn [r_st r_out r_inrd]. split; [discriminate|lia].
    + exfalso. unfold dec_sext in D.
      destruct (B64_NELEMS <=? c); [discriminate|].
      replace (c <? 0) with false in D by lia. cbv zeta in D.
      destruct (_ || _); discriminate.
Qed.

(* success means that everything consumed was alphabet or padding *)
Lemma dec_sext_alpha : forall c s, dec_sext c = SOk s -> In c b64_tbl.
Proof.
  intros c s. unfold dec_sext, B64_NELEMS.
  destruct (123 <=? c) eqn:E1; [discriminate|]. destruct (c <? 0) eqn:E2; [discriminate|].
  cbv zeta. destruct (_ || _) eqn:E3; [discriminate|]. intros _.
  assert (H : implb (negb ((b64_dtbl c - 64 <? 0) || (63 <? b64_dtbl c - 64)))
                    (existsb (Z.eqb c) b64_tbl) = true).
  { apply (all_small 123 (fun c => implb (negb ((b64_dtbl c - 64 <? 0) || (63 <? b64_dtbl c - 64)))
                    (existsb (Z.eqb c) b64_tbl))); [vm_compute; reflexivity|]. simpl. lia. }
  rewrite E3 in H. cbn [negb implb] in H. apply existsb_exists in H.
  destruct H as (y & Hy & Ey). apply Z.eqb_eq in Ey. subst. auto.
Qed.

Lemma b64_loop_alpha : forall inp max sx np out cnt,
  r_st (b64_loop inp max sx np out cnt) = DOk ->
  Forall (fun c => In c b64_tbl \/ c = PAD)
    (firstn (Z.to_nat (r_inrd (b64_loop inp max sx np out cnt) - cnt)) inp) /\
  cnt <= r_inrd (b64_loop inp max sx np out cnt).
Proof.
  assert (F : forall max sx out cnt, r_inrd (b64_finish max sx out cnt) = cnt).
  { intros. unfold b64_finish. destruct sx; auto. destruct (_ <? _); auto. }
  induction inp as [|c r IH]; intros max sx np out cnt H.
  - cbn [b64_loop] in *. rewrite F. split; [rewrite firstn_nil; constructor|lia].
  - cbn [b64_loop] in *.
    destruct ((zlen out <? max) && (np <? 2)) eqn:G.
    2:{ rewrite F. rewrite Z.sub_diag. split; [constructor|lia]. }
    destruct (c =? PAD) eqn:P.
    { specialize (IH max sx (np + 1) out (cnt + 1) H). destruct IH as [I1 I2].
      split; [|lia].
      set (z := r_inrd (b64_loop r max sx (np + 1) out (cnt + 1))) in *.
      replace (Z.to_nat (z - cnt)) with (S (Z.to_nat (z - (cnt + 1)))) by lia.
      cbn [firstn]. constructor; auto. right. lia. }
    destruct (0 <? np). { rewrite F. rewrite Z.sub_diag. split; [constructor|lia]. }
    destruct (dec_sext c) as [s| |] eqn:D; [|discriminate|discriminate].
    cbv zeta in *. destruct (max <? zlen out + zlen (sx ++ [s]) - 1) eqn:E; [discriminate|].
    destruct (zlen (sx ++ [s]) =? 4).
    + specialize (IH _ _ _ _ _ H). destruct IH as [I1 I2]. split; [|lia].
      set (z := r_inrd (b64_loop r max [] np (out ++ dec_sextets (sx ++ [s]) 3) (cnt + 1))) in *.
      replace (Z.to_nat (z - cnt)) with (S (Z.to_nat (z - (cnt + 1)))) by lia.
      cbn [firstn]. constructor; auto. left. apply dec_sext_alpha with s; auto.
    + specialize (IH _ _ _ _ _ H). destruct IH as [I1 I2]. split; [|lia].
      set (z := r_inrd (b64_loop r max (sx ++ [s]) np out (cnt + 1))) in *.
      replace (Z.to_nat (z - cnt)) with (S (Z.to_nat (z - (cnt + 1)))) by lia.
      cbn [firstn]. constructor; auto. left. apply dec_sext_alpha with s; auto.
Qed.
