From Verif Require Import Base AddrProofs Base64Model Base64Proofs AsciiModel.

Definition hex_ok (n : Z) : bool :=
  (ascii_to_nibble (nibble_to_ascii n) =? n mod 16) && (0 <=? nibble_to_ascii n).

Lemma nibble_rt : forall n, 0 <= n < 256 -> ascii_to_nibble (nibble_to_ascii n) = n mod 16.
Proof.
  intros n H. assert (E : hex_ok n = true).
  { apply (all_small 256); [vm_compute; reflexivity|]. simpl. lia. }
  unfold hex_ok in E. apply andb_true_iff in E. lia.
Qed.

Lemma byte_rt : forall b, is_byte b ->
  match byte_to_ascii b with [x; y] => ascii_to_byte x y = Some b | _ => False end.
Proof.
  intros b Hb. unfold is_byte in Hb. cbn [byte_to_ascii]. unfold ascii_to_byte.
  rewrite sh4. rewrite !nibble_rt by lia.
  replace ((b / 16) mod 16 =? -1) with false by lia. cbv zeta.
  replace (b mod 16 =? -1) with false by lia.
  rewrite Z.lor_comm, lor_shiftl_add by lia. unfold u8. f_equal.
  change (2 ^ 4) with 16. change (2 ^ 8) with 256. lia.
Qed.

Lemma ascii_to_mem_byte : forall b r cnt msz, is_byte b -> cnt < msz ->
  ascii_to_mem (byte_to_ascii b ++ r) cnt msz =
  let '(m, ok) := ascii_to_mem r (cnt + 1) msz in (b :: m, ok).
Proof.
  intros b r cnt msz Hb Hc. pose proof (byte_rt b Hb) as H.
  change (byte_to_ascii b) with [nibble_to_ascii (Z.shiftr b 4); nibble_to_ascii b] in *.
  cbn [app ascii_to_mem]. replace (msz <=? cnt) with false by lia. rewrite H. reflexivity.
Qed.

Lemma mem_rt : forall mem cnt asz n msz, all_bytes mem ->
  cnt + 2 * zlen mem <= asz -> n + zlen mem <= msz ->
  ascii_to_mem (mem_to_ascii mem cnt asz) n msz = (mem, true).
Proof.
  induction mem as [|b r IH]; intros cnt asz n msz Hb Ha Hm; [reflexivity|].
  inversion Hb as [|? ? B0 Br]; subst.
  assert (L : zlen (b :: r) = 1 + zlen r) by (unfold zlen; cbn [length]; lia).
  pose proof (zlen_nonneg _ r). cbn [mem_to_ascii].
  replace (asz <? cnt + 2) with false by lia.
  rewrite ascii_to_mem_byte by (auto; lia). rewrite IH; auto; lia.
Qed.

Lemma mem_to_ascii_len : forall mem cnt asz,
  cnt + 2 * zlen mem <= asz -> zlen (mem_to_ascii mem cnt asz) = 2 * zlen mem.
Proof.
  induction mem as [|b r IH]; intros cnt asz Ha; [reflexivity|].
  assert (L : zlen (b :: r) = 1 + zlen r) by (unfold zlen; cbn [length]; lia).
  pose proof (zlen_nonneg _ r). cbn [mem_to_ascii].
  replace (asz <? cnt + 2) with false by lia. rewrite zlen_app.
  change (zlen (byte_to_ascii b)) with 2. rewrite IH by lia. lia.
Qed.

Lemma mem_to_ascii_bound : forall mem cnt asz,
  cnt <= asz -> cnt + zlen (mem_to_ascii mem cnt asz) <= asz.
Proof.
  induction mem as [|b r IH]; intros cnt asz Ha; cbn [mem_to_ascii].
  - unfold zlen. cbn [length]. lia.
  - destruct (asz <? cnt + 2) eqn:E; [unfold zlen; cbn [length]; lia|].
    rewrite zlen_app. change (zlen (byte_to_ascii b)) with 2.
    specialize (IH (cnt + 2) asz ltac:(lia)). lia.
Qed.

(* the hexadecimal digits *)
Definition hex_digits : list Z := map Z.of_nat (seq 48 10 ++ seq 65 6 ++ seq 97 6).

Lemma nibble_hex : forall c, ascii_to_nibble c <> -1 <-> In c hex_digits.
Proof.
  intros c. split.
  - intros H. unfold ascii_to_nibble, tolower in H.
    assert (R : 0 <= c < 128).
    { destruct ((65 <=? c) && (c <=? 90)) eqn:E; cbv zeta in H.
      - apply andb_true_iff in E. lia.
      - destruct ((48 <=? c) && (c <=? 57)) eqn:E1;
          [apply andb_true_iff in E1; lia|].
        destruct ((97 <=? c) && (c <=? 102)) eqn:E2;
          [apply andb_true_iff in E2; lia|]. congruence. }
    assert (P : implb (negb (ascii_to_nibble c =? -1)) (existsb (Z.eqb c) hex_digits) = true).
    { apply (all_small 128 (fun c => implb (negb (ascii_to_nibble c =? -1)) (existsb (Z.eqb c) hex_digits)));
        [vm_compute; reflexivity|]. simpl. lia. }
    replace (ascii_to_nibble c =? -1) with false in P
      by (symmetry; apply Z.eqb_neq; exact H).
    cbn [negb implb] in P. apply existsb_exists in P. destruct P as (y & Hy & E).
    apply Z.eqb_eq in E. subst. auto.
  - intros H.
    assert (P : forallb (fun c => negb (ascii_to_nibble c =? -1)) hex_digits = true)
      by (vm_compute; reflexivity).
    rewrite forallb_forall in P. specialize (P c H). intros E. rewrite E in P. discriminate.
Qed.

Lemma ascii_to_byte_hex : forall a b v, ascii_to_byte a b = Some v -> In a hex_digits /\ In b hex_digits.
Proof.
  intros a b v. unfold ascii_to_byte.
  destruct (ascii_to_nibble a =? -1) eqn:E1; [discriminate|]. cbv zeta.
  destruct (ascii_to_nibble b =? -1) eqn:E2; [discriminate|]. intros _.
  split; apply nibble_hex; lia.
Qed.

(* success means every consumed character was a hex digit *)
Lemma ascii_to_mem_reject : forall n asb cnt msz m, (length asb <= n)%nat ->
  ascii_to_mem asb cnt msz = (m, true) ->
  Forall (fun c => In c hex_digits) (firstn (2 * length m) asb) /\
  (zlen m < msz - cnt -> (length asb <= 2 * length m + 1)%nat).
Proof.
  induction n as [|n IH]; intros asb cnt msz m Hn H.
  - destruct asb; [|cbn [length] in Hn; lia]. cbn in H. inversion H; subst. cbn. split; [constructor|lia].
  - destruct asb as [|a0 [|a1 r]]; cbn [ascii_to_mem] in H.
    + inversion H; subst. cbn. split; [constructor|lia].
    + inversion H; subst. cbn. split; [constructor|lia].
    + destruct (msz <=? cnt) eqn:E.
      * inversion H; subst. cbn [length]. split; [constructor|]. unfold zlen. cbn [length]. lia.
      * destruct (ascii_to_byte a0 a1) as [b|] eqn:D; [|discriminate].
        destruct (ascii_to_mem r (cnt + 1) msz) as [m' ok] eqn:R.
        inversion H; subst. specialize (IH r (cnt + 1) msz m' ltac:(cbn [length] in Hn; lia) R).
        destruct IH as [I1 I2]. destruct (ascii_to_byte_hex _ _ _ D) as [D0 D1].
        cbn [length]. replace (2 * S (length m'))%nat with (S (S (2 * length m'))) by lia.
        cbn [firstn]. split; [constructor; [auto|constructor; auto]|].
        intros Hz. unfold zlen in Hz, I2. cbn [length] in Hz. specialize (I2 ltac:(lia)). lia.
Qed.

(* ---- 64-bit numbers ---- *)

Lemma asc_u64_byte : forall k b r u, is_byte b ->
  asc_u64 (S k) (byte_to_ascii b ++ r) u = asc_u64 k r (u64 (Z.lor (Z.shiftl u 8) b)).
Proof.
  intros k b r u Hb. pose proof (byte_rt b Hb) as H.
  change (byte_to_ascii b) with [nibble_to_ascii (Z.shiftr b 4); nibble_to_ascii b] in *.
  cbn [app asc_u64]. rewrite H. reflexivity.
Qed.

Lemma u64_rt_gen : forall k v u, (k <= 8)%nat -> 0 <= v -> 
  0 <= u * 2 ^ (8 * Z.of_nat k) + v mod 2 ^ (8 * Z.of_nat k) < 2 ^ 64 -> 0 <= u ->
  asc_u64 k (u64_asc k v) u = Some (u * 2 ^ (8 * Z.of_nat k) + v mod 2 ^ (8 * Z.of_nat k)).
Proof.
  induction k as [|k IH]; intros v u Hk Hv Hr Hu.
  - cbn [u64_asc asc_u64]. change (2 ^ (8 * Z.of_nat 0)) with 1.
    rewrite Z.mod_1_r. f_equal. lia.
  - cbn [u64_asc]. rewrite land_255, shiftr_div by lia.
    set (p := 2 ^ (8 * Z.of_nat k)) in *.
    assert (Hp : 0 < p) by (apply Z.pow_pos_nonneg; lia).
    assert (E : 2 ^ (8 * Z.of_nat (S k)) = 256 * p).
    { unfold p. replace (8 * Z.of_nat (S k)) with (8 + 8 * Z.of_nat k) by lia.
      rewrite Z.pow_add_r by lia. reflexivity. }
    rewrite E in *.
    assert (M : v mod (256 * p) = v mod p + p * ((v / p) mod 256)).
    { rewrite (Z.mul_comm 256 p). apply Z.rem_mul_r; lia. }
    pose proof (Z.mod_pos_bound (v / p) 256 ltac:(lia)) as Hb.
    pose proof (Z.mod_pos_bound v p Hp) as Hvp.
    rewrite asc_u64_byte by (unfold is_byte; lia).
    assert (Hp1 : 1 <= p) by lia.
    assert (Q : u64 (Z.lor (Z.shiftl u 8) ((v / p) mod 256)) = u * 256 + (v / p) mod 256).
    { rewrite Z.lor_comm, lor_shiftl_add by lia. change (2 ^ 8) with 256.
      rewrite u64_id; [lia|].
      rewrite M in Hr. nia. }
    rewrite Q, M. rewrite IH; try lia; fold p.
    f_equal. ring.
Qed.
