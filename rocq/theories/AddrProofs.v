(* Lemmas about the address encodings of AddrModel.v *)
From Verif Require Import Base AddrModel.

Lemma land_255 : forall x, Z.land x 255 = x mod 256.
Proof. intros. change 255 with (Z.ones 8). rewrite Z.land_ones by lia. reflexivity. Qed.

Lemma ldiff_255 : forall x, Z.ldiff x 255 = x / 256 * 256.
Proof.
  intros. change 255 with (Z.ones 8). rewrite Z.ldiff_ones_r by lia.
  rewrite Z.shiftl_mul_pow2, Z.shiftr_div_pow2 by lia. reflexivity.
Qed.

Lemma shiftr_div : forall x n, 0 <= n -> Z.shiftr x n = x / 2 ^ n.
Proof. intros. apply Z.shiftr_div_pow2; auto. Qed.

Lemma testbit_small : forall a n k, 0 <= n <= k -> 0 <= a < 2 ^ n -> Z.testbit a k = false.
Proof.
  intros a n k Hk Ha. apply Z.testbit_false; [lia|].
  rewrite Z.div_small; auto. split; [lia|].
  apply Z.lt_le_trans with (2 ^ n); [lia|]. apply Z.pow_le_mono_r; lia.
Qed.

(* or-ing in a field above the bits already present is addition *)
Lemma lor_shiftl_add : forall a b n,
  0 <= n -> 0 <= a < 2 ^ n -> Z.lor a (Z.shiftl b n) = a + b * 2 ^ n.
Proof.
  intros a b n Hn Ha.
  assert (D : Z.land a (Z.shiftl b n) = 0).
  { apply Z.bits_inj'. intros k Hk. rewrite Z.land_spec, Z.bits_0.
    destruct (Z_lt_ge_dec k n).
    - rewrite Z.shiftl_spec_low by lia. apply andb_false_r.
    - rewrite (testbit_small a n k) by lia. reflexivity. }
  rewrite <- Z.lxor_lor by auto. rewrite <- Z.add_nocarry_lxor by auto.
  rewrite Z.shiftl_mul_pow2 by lia. lia.
Qed.

Lemma lor_mul_add : forall a b n,
  0 <= n -> 0 <= b < 2 ^ n -> Z.lor (a * 2 ^ n) b = a * 2 ^ n + b.
Proof.
  intros. rewrite Z.lor_comm. rewrite <- Z.shiftl_mul_pow2 by lia.
  rewrite lor_shiftl_add by lia. rewrite Z.shiftl_mul_pow2 by lia. lia.
Qed.

Lemma s64_id : forall x, 0 <= x < 2 ^ 63 -> s64 x = x.
Proof.
  intros x Hx. unfold s64. rewrite Z.mod_small by lia.
  replace (x <? 2 ^ 63) with true; auto. symmetry. apply Z.ltb_lt. lia.
Qed.

Lemma u64_id : forall x, 0 <= x < 2 ^ 64 -> u64 x = x.
Proof. intros. unfold u64. apply Z.mod_small; auto. Qed.
Lemma u32_id : forall x, 0 <= x < 2 ^ 32 -> u32 x = x.
Proof. intros. unfold u32. apply Z.mod_small; auto. Qed.
Lemma u8_id : forall x, 0 <= x < 2 ^ 8 -> u8 x = x.
Proof. intros. unfold u8. apply Z.mod_small; auto. Qed.

Lemma s64_u64 : forall x, - 2 ^ 63 <= x < 2 ^ 63 -> s64 (u64 x) = x.
Proof.
  intros x Hx. unfold s64, u64.
  rewrite Z.mod_mod by lia.
  destruct (Z_lt_ge_dec x 0).
  - replace (x mod 2 ^ 64) with (x + 2 ^ 64).
    + replace (x + 2 ^ 64 <? 2 ^ 63) with false; [lia|].
      symmetry. apply Z.ltb_ge. lia.
    + apply Z.mod_unique with (-1); lia.
  - rewrite Z.mod_small by lia.
    replace (x <? 2 ^ 63) with true; auto. symmetry. apply Z.ltb_lt. lia.
Qed.

(* ---- 56-bit references ---- *)

Lemma vaddr56_digits : forall u,
  0 <= u -> [ Z.land (Z.shiftr u 8) 255; Z.land (Z.shiftr u 16) 255;
         Z.land (Z.shiftr u 24) 255; Z.land (Z.shiftr u 32) 255;
         Z.land (Z.shiftr u 40) 255; Z.land (Z.shiftr u 48) 255;
         Z.land (Z.shiftr u 56) 255 ] = le_enc 7 (u / 256).
Proof.
  intros u Hu. cbn [le_enc]. rewrite !land_255, !shiftr_div by lia.
  rewrite !Z.div_div by lia. reflexivity.
Qed.

Lemma vaddr56_lor : forall b0 b1 b2 b3 b4 b5 b6,
  all_bytes [b0;b1;b2;b3;b4;b5;b6] ->
  Z.lor (Z.lor (Z.lor (Z.lor (Z.lor (Z.lor (Z.lor 0 (Z.shiftl b0 8)) (Z.shiftl b1 16))
        (Z.shiftl b2 24)) (Z.shiftl b3 32)) (Z.shiftl b4 40)) (Z.shiftl b5 48)) (Z.shiftl b6 56)
  = 256 * le_dec [b0;b1;b2;b3;b4;b5;b6].
Proof.
  intros b0 b1 b2 b3 b4 b5 b6 H. unfold all_bytes in H.
  repeat match goal with H : Forall _ (_ :: _) |- _ => inversion H; clear H; subst end.
  unfold is_byte in *. rewrite Z.lor_0_l.
  rewrite (Z.shiftl_mul_pow2 b0 8) by lia.
  rewrite (lor_shiftl_add _ b1 16) by lia.
  rewrite (lor_shiftl_add _ b2 24) by lia.
  rewrite (lor_shiftl_add _ b3 32) by lia.
  rewrite (lor_shiftl_add _ b4 40) by lia.
  rewrite (lor_shiftl_add _ b5 48) by lia.
  rewrite (lor_shiftl_add _ b6 56) by lia.
  cbn [le_dec]. lia.
Qed.

Lemma vaddr56_roundtrip : forall off,
  0 <= off < 2 ^ 63 -> off mod 256 = 0 -> vaddr56_xtoh (vaddr56_htox off) = off.
Proof.
  intros off Ho Hm. unfold vaddr56_htox, off_isnull.
  replace (off <? 0) with false by lia.
  rewrite u64_id by lia. cbv zeta. rewrite vaddr56_digits by lia.
  assert (Hb : all_bytes (le_enc 7 (off / 256))) by apply le_enc_bytes.
  assert (Hv : le_dec (le_enc 7 (off / 256)) = off / 256) by (apply le_dec_enc; simpl; lia).
  assert (Hl : length (le_enc 7 (off / 256)) = 7%nat) by apply le_enc_length.
  remember (le_enc 7 (off / 256)) as l eqn:El. clear El.
  unfold vaddr56_xtoh.
  destruct (list_eq_dec Z.eq_dec l vaddr56_null) as [e|ne].
  - subst l. exfalso. cbv [vaddr56_null le_dec] in Hv. lia.
  - do 8 (destruct l as [|? l]; [cbn in Hl; try discriminate|]); [|cbn in Hl; discriminate].
    cbn [nth]. rewrite vaddr56_lor by auto. rewrite Hv. rewrite s64_id; lia.
Qed.

Lemma vaddr56_null_roundtrip : forall off, off < 0 -> vaddr56_xtoh (vaddr56_htox off) = -1.
Proof.
  intros. unfold vaddr56_htox, off_isnull. replace (off <? 0) with true by lia. reflexivity.
Qed.

(* ---- 64-bit references ---- *)

Lemma voff_ltype_roundtrip : forall off t,
  0 <= off < 2 ^ 63 -> off mod 256 = 0 -> 0 < t < 256 ->
  voff_ltype_dec (voff_ltype_enc off t) = (off, t).
Proof.
  intros off t Ho Hm Ht. unfold voff_ltype_enc, LT_NONE.
  replace (t =? 0) with false by lia.
  rewrite !u64_id by lia. rewrite ldiff_255, land_255.
  replace (off / 256 * 256) with off by lia.
  replace (t mod 256) with t by lia.
  assert (E : Z.lor off t = off + t).
  { replace off with (off / 256 * 2 ^ 8) by lia. apply lor_mul_add; lia. }
  rewrite E. unfold voff_ltype_dec.
  replace (0 <? off + t) with true by lia.
  rewrite ldiff_255, land_255.
  replace ((off + t) / 256 * 256) with off by lia.
  replace ((off + t) mod 256) with t by lia.
  rewrite s64_id by lia. reflexivity.
Qed.

Lemma voff_ltype_enc_range : forall off t,
  0 <= off < 2 ^ 63 -> off mod 256 = 0 -> 0 < t < 256 ->
  voff_ltype_enc off t = off + t.
Proof.
  intros off t Ho Hm Ht. unfold voff_ltype_enc, LT_NONE.
  replace (t =? 0) with false by lia.
  rewrite !u64_id by lia. rewrite ldiff_255, land_255.
  replace (off / 256 * 256) with off by lia.
  replace (t mod 256) with t by lia.
  replace off with (off / 256 * 2 ^ 8) at 1 by lia.
  rewrite lor_mul_add; lia.
Qed.

Lemma vaddr64_roundtrip : forall off t,
  0 <= off < 2 ^ 63 -> off mod 256 = 0 -> 0 < t < 256 ->
  vaddr64_xtoh (vaddr64_htox (vaddr_setup t off)) = vaddr_setup t off.
Proof.
  intros off t Ho Hm Ht. unfold vaddr64_xtoh, vaddr64_htox. cbn [va_off va_ltype vaddr_setup].
  rewrite le_dec_enc.
  - rewrite voff_ltype_roundtrip by auto. reflexivity.
  - rewrite voff_ltype_enc_range by auto. change (256 ^ Z.of_nat 8) with (2 ^ 64). lia.
Qed.

Lemma vaddr64_none_roundtrip : vaddr64_xtoh (vaddr64_htox vaddr_none) = vaddr_none.
Proof. vm_compute. reflexivity. Qed.

Lemma len_height_roundtrip : forall len h,
  0 <= len < 2 ^ 60 -> 0 <= h < 16 -> len_height_dec (len_height_enc len h) = (len, h).
Proof.
  intros len h Hl Hh. unfold len_height_dec, len_height_enc.
  rewrite Z.shiftl_mul_pow2 by lia. rewrite u64_id by lia.
  change 15 with (Z.ones 4). rewrite !Z.land_ones by lia.
  rewrite (Z.mod_small h) by lia.
  rewrite lor_mul_add by lia. rewrite shiftr_div by lia.
  change (2 ^ 4) with 16. f_equal; lia.
Qed.

(* ---- packed structures ---- *)

Lemma sub_hd : forall n a b, length a = n -> sub 0 n (a ++ b) = a.
Proof.
  intros n a b H. unfold sub. cbn [skipn]. rewrite <- H.
  rewrite firstn_app, Nat.sub_diag, firstn_O, app_nil_r. apply firstn_all.
Qed.

Lemma sub_skip : forall i n a b, (length a <= i)%nat ->
  sub i n (a ++ b) = sub (i - length a) n b.
Proof.
  intros i n a b H. unfold sub. rewrite skipn_app.
  rewrite (skipn_all2 a) by auto. reflexivity.
Qed.

Lemma sub_whole : forall n a, length a = n -> sub 0 n a = a.
Proof. intros. unfold sub. cbn [skipn]. subst. apply firstn_all. Qed.

Lemma sub_app_l : forall i n a b, (i + n <= length a)%nat -> sub i n (a ++ b) = sub i n a.
Proof.
  intros i n a b H. unfold sub. rewrite skipn_app.
  rewrite firstn_app, skipn_length.
  replace (n - (length a - i))%nat with 0%nat by lia.
  rewrite firstn_O, app_nil_r. reflexivity.
Qed.

(* A segment id as produced by lsid_setup on representable arguments. *)
Definition lsid_wf (l : lsid) : Prop :=
  length (ls_lvid l) = 16%nat /\ 0 <= ls_lsize l < 2 ^ 32 /\ 0 <= ls_vindex l < 2 ^ 32 /\
  0 <= ls_vspace l < 256 /\ 0 <= ls_height l < 256 /\ 0 <= ls_ltype l < 256.

Definition laddr_wf (a : laddr) : Prop :=
  lsid_wf (la_lsid a) /\ 0 <= la_pos a < 2 ^ 32 /\ 0 <= la_len a < 2 ^ 32.

Lemma lsid32b_length : forall l, length (ls_lvid l) = 16%nat -> length (lsid32b_htox l) = 32%nat.
Proof.
  intros l H. unfold lsid32b_htox. rewrite !app_length, !le_enc_length, H. reflexivity.
Qed.

Ltac field_skip :=
  rewrite sub_skip by (rewrite ?le_enc_length; cbn [length]; lia);
  rewrite ?le_enc_length; cbn [length Nat.sub].

Lemma lsid32b_roundtrip : forall l, lsid_wf l -> lsid32b_xtoh (lsid32b_htox l) = l.
Proof.
  intros [lvid lsz vi vs h t] (H1 & H2 & H3 & H4 & H5 & H6). cbn in H1, H2, H3, H4, H5, H6.
  unfold lsid32b_xtoh, lsid32b_htox. cbn [ls_lvid ls_lsize ls_vindex ls_vspace ls_height ls_ltype].
  rewrite !u32_id, !u8_id by lia.
  f_equal.
  - apply sub_hd; auto.
  - rewrite sub_skip by lia. rewrite H1. cbn [Nat.sub].
    rewrite sub_hd by apply le_enc_length. apply le_dec_enc. simpl. lia.
  - rewrite sub_skip by lia. rewrite H1. cbn [Nat.sub]. field_skip.
    rewrite sub_hd by apply le_enc_length. apply le_dec_enc. simpl. lia.
  - rewrite sub_skip by lia. rewrite H1. cbn [Nat.sub]. do 2 field_skip.
    cbn. lia.
  - rewrite sub_skip by lia. rewrite H1. cbn [Nat.sub]. do 2 field_skip.
    cbn. lia.
  - rewrite sub_skip by lia. rewrite H1. cbn [Nat.sub]. do 2 field_skip.
    cbn. lia.
Qed.

Lemma laddr48b_roundtrip : forall a, laddr_wf a -> laddr48b_xtoh (laddr48b_htox a) = a.
Proof.
  intros [l pos len] (Hl & Hp & Hn). cbn in Hl, Hp, Hn.
  assert (L32 : length (lsid32b_htox l) = 32%nat) by (apply lsid32b_length; apply Hl).
  unfold laddr48b_xtoh, laddr48b_htox. cbn [la_lsid la_pos la_len].
  rewrite !u32_id by lia. f_equal.
  - rewrite sub_hd by auto. apply lsid32b_roundtrip; auto.
  - rewrite sub_skip by lia. rewrite L32. cbn [Nat.sub].
    rewrite sub_hd by apply le_enc_length. apply le_dec_enc. simpl. lia.
  - rewrite sub_skip by lia. rewrite L32. cbn [Nat.sub]. field_skip.
    rewrite sub_hd by apply le_enc_length. apply le_dec_enc. simpl. lia.
Qed.

Lemma laddr48b_length : forall a, length (ls_lvid (la_lsid a)) = 16%nat ->
  length (laddr48b_htox a) = 48%nat.
Proof.
  intros a H. unfold laddr48b_htox. rewrite !app_length, !le_enc_length, lsid32b_length by auto.
  reflexivity.
Qed.

Lemma uaddr64b_roundtrip : forall pad u,
  laddr_wf (ua_laddr u) -> - 2 ^ 63 <= ua_voff u < 2 ^ 63 ->
  uaddr64b_xtoh (uaddr64b_htox pad u) = u.
Proof.
  intros pad [a v] Ha Hv. cbn in Ha, Hv.
  assert (L : length (laddr48b_htox a) = 48%nat) by (apply laddr48b_length; apply Ha).
  unfold uaddr64b_xtoh, uaddr64b_htox. cbn [ua_laddr ua_voff]. f_equal.
  - rewrite sub_hd by auto. apply laddr48b_roundtrip; auto.
  - rewrite sub_skip by lia. rewrite L. cbn [Nat.sub].
    rewrite sub_hd by apply le_enc_length. rewrite le_dec_enc.
    + apply s64_u64; auto.
    + change (256 ^ Z.of_nat 8) with (2 ^ 64). unfold u64. apply Z.mod_pos_bound. lia.
Qed.

Definition paddr_wf (p : paddr) : Prop :=
  length (pa_pvid p) = 16%nat /\ 0 <= pa_index p < 2 ^ 32 /\
  - 2 ^ 63 <= pa_off p < 2 ^ 63 /\ 0 <= pa_len p < 2 ^ 32 /\ 0 <= pa_ptype p < 256.

Lemma paddr48b_roundtrip : forall p, paddr_wf p -> paddr48b_xtoh (paddr48b_htox p) = p.
Proof.
  intros [v i o n t] (H1 & H2 & H3 & H4 & H5). cbn in H1, H2, H3, H4, H5.
  unfold paddr48b_xtoh, paddr48b_htox. cbn [pa_pvid pa_index pa_off pa_len pa_ptype].
  rewrite !u32_id, u8_id by lia.
  assert (R : length (repeat 0 12) = 12%nat) by reflexivity.
  f_equal.
  - apply sub_hd; auto.
  - rewrite sub_skip by lia. rewrite H1. cbn [Nat.sub].
    rewrite sub_hd by apply le_enc_length. apply le_dec_enc. simpl. lia.
  - rewrite sub_skip by lia. rewrite H1. cbn [Nat.sub]. field_skip.
    rewrite sub_skip by (rewrite R; lia). rewrite R. cbn [Nat.sub].
    rewrite sub_hd by apply le_enc_length. rewrite le_dec_enc.
    + apply s64_u64; auto.
    + change (256 ^ Z.of_nat 8) with (2 ^ 64). unfold u64. apply Z.mod_pos_bound. lia.
  - rewrite sub_skip by lia. rewrite H1. cbn [Nat.sub]. field_skip.
    rewrite sub_skip by (rewrite R; lia). rewrite R. cbn [Nat.sub]. field_skip.
    rewrite sub_hd by apply le_enc_length. apply le_dec_enc. simpl. lia.
  - rewrite sub_skip by lia. rewrite H1. cbn [Nat.sub]. field_skip.
    rewrite sub_skip by (rewrite R; lia). rewrite R. cbn [Nat.sub]. do 2 field_skip.
    cbn. lia.
Qed.

(* ---- initialisation vectors ---- *)

Lemma xor_bytes_length : forall a b, length (xor_bytes a b) = Nat.min (length a) (length b).
Proof. induction a; destruct b; simpl; auto. Qed.

Lemma xor_bytes_comm : forall a b, xor_bytes a b = xor_bytes b a.
Proof. induction a; destruct b; simpl; auto. rewrite IHa, Z.lxor_comm. auto. Qed.

Lemma xor_bytes_cancel : forall x a b,
  length x = length a -> length x = length b ->
  xor_bytes x a = xor_bytes x b -> a = b.
Proof.
  induction x as [|v x IH]; intros [|y a] [|z b]; simpl; intros L1 L2 E; try discriminate; auto.
  inversion E as [[E1 E2]]. f_equal.
  - apply (f_equal (Z.lxor v)) in E1.
    rewrite <- !Z.lxor_assoc, !Z.lxor_nilpotent, !Z.lxor_0_l in E1. auto.
  - apply IH; auto.
Qed.

Lemma xor_bytes_app : forall a b c d, length a = length c ->
  xor_bytes (a ++ b) (c ++ d) = xor_bytes a c ++ xor_bytes b d.
Proof.
  induction a as [|x a IH]; intros b [|y c] d; simpl; intros L; try discriminate; auto.
  rewrite IH; auto.
Qed.

Lemma xor_bytes_zero : forall a n, length a = n -> xor_bytes a (repeat 0 n) = a.
Proof.
  induction a as [|x a IH]; intros [|n]; simpl; intros L; try discriminate; auto.
  rewrite Z.lxor_0_r, IH; auto.
Qed.

Lemma xor_bytes_assoc : forall a b c,
  xor_bytes (xor_bytes a b) c = xor_bytes a (xor_bytes b c).
Proof.
  induction a as [|x a IH]; intros [|y b] [|z c]; simpl; auto.
  rewrite Z.lxor_assoc, IH. auto.
Qed.

(* the part of the IV that is mixed with the volume id *)
Definition iv_mix (a : laddr) : bytes :=
  xor_bytes (le_enc 4 (ls_lsize (la_lsid a))) (le_enc 4 (la_pos a)) ++
  xor_bytes (le_enc 4 (ls_vindex (la_lsid a))) (le_enc 4 (la_len a)) ++
  [ls_vspace (la_lsid a); ls_height (la_lsid a); ls_ltype (la_lsid a); 0; 0; 0; 0; 0].

Lemma laddr_as_iv_eq : forall a, laddr_wf a ->
  laddr_as_iv a = xor_bytes (ls_lvid (la_lsid a)) (iv_mix a).
Proof.
  intros [[lvid lsz vi vs h t] pos len] ((H1 & H2 & H3 & H4 & H5 & H6) & H7 & H8).
  cbn in H1, H2, H3, H4, H5, H6, H7, H8.
  unfold laddr_as_iv, laddr48b_htox, lsid32b_htox, iv_mix.
  cbn [la_lsid la_pos la_len ls_lvid ls_lsize ls_vindex ls_vspace ls_height ls_ltype].
  rewrite !u32_id, !u8_id by lia.
  rewrite <- !app_assoc.
  rewrite (sub_hd 16) by auto.
  rewrite (sub_skip 16) by lia. rewrite H1. cbn [Nat.sub].
  rewrite (sub_skip 32) by lia. rewrite H1. cbn [Nat.sub].
  rewrite xor_bytes_assoc. f_equal.
  set (A := le_enc 4 lsz). set (B := le_enc 4 vi). set (C := le_enc 4 pos). set (D := le_enc 4 len).
  assert (LA : length A = 4%nat) by apply le_enc_length.
  assert (LB : length B = 4%nat) by apply le_enc_length.
  assert (LC : length C = 4%nat) by apply le_enc_length.
  assert (LD : length D = 4%nat) by apply le_enc_length.
  replace (sub 0 16 (A ++ B ++ [vs; h; t] ++ repeat 0 5 ++ C ++ D ++ repeat 0 8))
    with (A ++ B ++ [vs; h; t] ++ repeat 0 5).
  2:{ symmetry. replace (A ++ B ++ [vs; h; t] ++ repeat 0 5 ++ C ++ D ++ repeat 0 8)
        with ((A ++ B ++ [vs; h; t] ++ repeat 0 5) ++ C ++ D ++ repeat 0 8)
        by (rewrite <- !app_assoc; reflexivity).
      apply sub_hd. rewrite !app_length, LA, LB. reflexivity. }
  replace (sub 16 16 (A ++ B ++ [vs; h; t] ++ repeat 0 5 ++ C ++ D ++ repeat 0 8))
    with (C ++ D ++ repeat 0 8).
  2:{ symmetry. replace (A ++ B ++ [vs; h; t] ++ repeat 0 5 ++ C ++ D ++ repeat 0 8)
        with ((A ++ B ++ [vs; h; t] ++ repeat 0 5) ++ C ++ D ++ repeat 0 8)
        by (rewrite <- !app_assoc; reflexivity).
      rewrite sub_skip by (rewrite !app_length, LA, LB; cbn; lia).
      replace (16 - length (A ++ B ++ [vs; h; t] ++ repeat (0:Z) 5)%Z)%nat with 0%nat
        by (rewrite !app_length, LA, LB; reflexivity).
      apply sub_whole. rewrite !app_length, LC, LD. reflexivity. }
  rewrite xor_bytes_app by lia. rewrite xor_bytes_app by lia.
  cbn [app repeat xor_bytes]. rewrite !Z.lxor_0_r. reflexivity.
Qed.

Lemma iv_mix_length : forall a, length (iv_mix a) = 16%nat.
Proof.
  intros. unfold iv_mix. rewrite !app_length, !xor_bytes_length, !le_enc_length. reflexivity.
Qed.

Lemma le_enc_inj : forall n x y, 0 <= x < 256 ^ Z.of_nat n -> 0 <= y < 256 ^ Z.of_nat n ->
  le_enc n x = le_enc n y -> x = y.
Proof. intros n x y Hx Hy E. rewrite <- (le_dec_enc n x), <- (le_dec_enc n y), E; auto. Qed.

Lemma app_inv_len : forall A (a b c d : list A), length a = length c ->
  a ++ b = c ++ d -> a = c /\ b = d.
Proof.
  induction a as [|x a IH]; intros b [|y c] d; simpl; intros L E; try discriminate; auto.
  inversion E as [[E1 E2]]. destruct (IH b c d) as [E3 E4]; auto. subst. auto.
Qed.

Lemma iv_inj : forall a b,
  laddr_wf a -> laddr_wf b ->
  ls_lvid (la_lsid a) = ls_lvid (la_lsid b) ->
  (ls_height (la_lsid a) = ls_height (la_lsid b) -> ls_lsize (la_lsid a) = ls_lsize (la_lsid b)) ->
  (ls_ltype (la_lsid a) = ls_ltype (la_lsid b) -> la_len a = la_len b) ->
  laddr_as_iv a = laddr_as_iv b -> a = b.
Proof.
  intros a b Wa Wb Ev Hh Ht E.
  rewrite !laddr_as_iv_eq in E by auto. rewrite Ev in E.
  apply xor_bytes_cancel in E;
    [|rewrite iv_mix_length; apply Wb|rewrite iv_mix_length; apply Wb].
  destruct a as [[lv1 sz1 vi1 vs1 h1 t1] p1 n1], b as [[lv2 sz2 vi2 vs2 h2 t2] p2 n2].
  unfold iv_mix in E. cbn in Ev, Hh, Ht.
  cbn [la_lsid la_pos la_len ls_lvid ls_lsize ls_vindex ls_vspace ls_height ls_ltype] in E.
  destruct Wa as ((A1 & A2 & A3 & A4 & A5 & A6) & A7 & A8).
  destruct Wb as ((B1 & B2 & B3 & B4 & B5 & B6) & B7 & B8).
  cbn in A1, A2, A3, A4, A5, A6, A7, A8, B1, B2, B3, B4, B5, B6, B7, B8.
  apply app_inv_len in E; [|rewrite !xor_bytes_length, !le_enc_length; reflexivity].
  destruct E as [E1 E]. apply app_inv_len in E; [|rewrite !xor_bytes_length, !le_enc_length; reflexivity].
  destruct E as [E2 E3]. inversion E3; subst.
  rewrite (Hh eq_refl) in *. rewrite (Ht eq_refl) in *.
  apply xor_bytes_cancel in E1; [|rewrite !le_enc_length; reflexivity..].
  rewrite (xor_bytes_comm (le_enc 4 vi1)), (xor_bytes_comm (le_enc 4 vi2)) in E2.
  apply xor_bytes_cancel in E2; [|rewrite !le_enc_length; reflexivity..].
  apply le_enc_inj in E1; [|change (256 ^ Z.of_nat 4) with (2 ^ 32); lia..].
  apply le_enc_inj in E2; [|change (256 ^ Z.of_nat 4) with (2 ^ 32); lia..].
  subst. reflexivity.
Qed.
