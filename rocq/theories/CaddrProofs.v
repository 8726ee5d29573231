(* Content addresses as text: the printer prints and the reader reads what CaddrSpec says. *)
From Verif Require Import Base AddrModel MntModel WalkModel RulesModel RulesSpec RulesProofs CaddrModel CaddrSpec.

(* ---- digits ---- *)
Lemma land15 : forall n, Z.land n 15 = n mod 16.
Proof. intros. change 15 with (Z.ones 4). rewrite Z.land_ones by lia. reflexivity. Qed.
Lemma nibble_digit : forall base d, 0 <= d < base -> base <= 16 -> digit base (nibble_to_ascii d) d /\ (nibble_to_ascii d < 65 \/ 90 < nibble_to_ascii d).
Proof. intros base d H HB. unfold nibble_to_ascii, digit. rewrite land15, Z.mod_small by lia. cbv zeta. destruct (d <? 10) eqn:E; lia. Qed.
Lemma nibble_mod : forall n, nibble_to_ascii n = nibble_to_ascii (n mod 16).
Proof. intros. unfold nibble_to_ascii. rewrite !land15, Z.mod_mod by lia. reflexivity. Qed.
Lemma nibble_iff : forall a d, ascii_to_nibble a = Some d <-> digit 16 a d.
Proof.
  intros a d. unfold ascii_to_nibble, digit. cbv zeta.
  destruct ((65 <=? a) && (a <=? 90)) eqn:E0;
  [destruct ((48 <=? a + 32) && (a + 32 <=? 57)) eqn:E1; [lia|];
   destruct ((97 <=? a + 32) && (a + 32 <=? 102)) eqn:E2|
   destruct ((48 <=? a) && (a <=? 57)) eqn:E1;
   [|destruct ((97 <=? a) && (a <=? 102)) eqn:E2]];
  split; intros H; try discriminate; try (injection H as <-; lia); try (f_equal; lia); lia.
Qed.

Lemma byte_parts : forall n0 n1, 0 <= n0 < 16 -> 0 <= n1 < 16 -> u8 (Z.lor (Z.shiftl n0 4) n1) = 16 * n0 + n1.
Proof.
  intros n0 n1 H0 H1. rewrite Z.shiftl_mul_pow2 by lia.
  assert (HL : Z.land (n0 * 2 ^ 4) n1 = 0).
  { apply Z.bits_inj'. intros k Hk. rewrite Z.land_spec, Z.bits_0. destruct (Z.ltb_spec k 4).
    - rewrite Z.mul_pow2_bits_low by lia. reflexivity.
    - rewrite (Z.bits_above_log2 n1); [apply andb_false_r|lia|].
      destruct (Z.eq_dec n1 0) as [-> |]; [cbn; lia|]. apply Z.log2_lt_pow2; [lia|].
      apply Z.lt_le_trans with (2 ^ 4); [lia|]. apply Z.pow_le_mono_r; lia. }
  rewrite <- Z.lxor_lor, <- Z.add_nocarry_lxor by exact HL. unfold u8. rewrite Z.mod_small; lia.
Qed.

Lemma byte_iff : forall a0 a1 b, ascii_to_byte a0 a1 = Some b <-> exists d0 d1, digit 16 a0 d0 /\ digit 16 a1 d1 /\ b = 16 * d0 + d1.
Proof.
  intros a0 a1 b. unfold ascii_to_byte. split.
  - destruct (ascii_to_nibble a0) as [d0|] eqn:E0; [|discriminate]. destruct (ascii_to_nibble a1) as [d1|] eqn:E1; [|discriminate].
    apply nibble_iff in E0. apply nibble_iff in E1. intros H. injection H as <-. exists d0, d1. split; [auto|]. split; [auto|].
    apply byte_parts; [apply E0|apply E1].
  - intros (d0 & d1 & H0 & H1 & ->). pose proof (proj1 H0). pose proof (proj1 H1).
    apply nibble_iff in H0. apply nibble_iff in H1. rewrite H0, H1. f_equal. apply byte_parts; auto.
Qed.
Lemma byte_out : forall b, is_byte b -> exists c1 c2, byte_to_ascii b = [c1; c2] /\ digit 16 c1 (b / 16) /\ digit 16 c2 (b mod 16) /\
  small_letters [c1; c2].
Proof.
  intros b HB. unfold is_byte in HB. unfold byte_to_ascii. rewrite Z.shiftr_div_pow2 by lia. change (2 ^ 4) with 16. rewrite (nibble_mod b).
  destruct (nibble_digit 16 (b / 16)) as [H1 H2]; [lia|lia|]. destruct (nibble_digit 16 (b mod 16)) as [H3 H4]; [lia|lia|].
  eexists; eexists. split; [reflexivity|]. split; [auto|]. split; [auto|]. constructor; [exact H2|]. constructor; [exact H4|constructor].
Qed.

Lemma hash_out : forall h room, all_bytes h -> 2 * zlen h <= room -> hex_bytes h (mem_to_ascii h room) /\ small_letters (mem_to_ascii h room).
Proof.
  induction h as [|b h IH]; intros room HB HR; cbn [mem_to_ascii]; [split; constructor|].
  inversion HB as [|? ? HB1 HB2]; subst. unfold zlen in *. cbn [length] in HR. replace (2 >? room) with false by lia.
  destruct (byte_out b HB1) as (c1 & c2 & -> & H1 & H2 & H3). destruct (IH (room - 2) HB2) as [H4 H5]; [lia|]. cbn [app]. split.
  - replace b with (16 * (b / 16) + b mod 16) at 1 by lia. constructor; auto.
  - change (c1 :: c2 :: mem_to_ascii h (room - 2)) with ([c1; c2] ++ mem_to_ascii h (room - 2)). apply Forall_app; auto.
Qed.
Lemma hex_len : forall h t, hex_bytes h t -> length t = (2 * length h)%nat.
Proof. intros h t H. induction H; cbn [length] in *; lia. Qed.
Lemma hex_is_bytes : forall h t, hex_bytes h t -> all_bytes h.
Proof. intros h t H. induction H; constructor; auto. unfold digit, is_byte in *. lia. Qed.
Lemma mem_iff : forall k w l, (length w <= 2 * k)%nat ->
  (ascii_to_mem k w = Some l /\ length l = k <-> hex_bytes l w /\ length l = k).
Proof.
  induction k as [|k IH]; intros w l HW.
  - destruct w as [|? ?]; [|cbn [length] in HW; lia]. cbn [ascii_to_mem]. split; intros [H HL].
    + injection H as <-. split; [constructor|auto].
    + destruct l; [auto|discriminate].
  - destruct w as [|a0 [|a1 r]]; cbn [ascii_to_mem].
    + split; intros [H HL]; [injection H as <-; discriminate|]. inversion H; subst; discriminate.
    + split; intros [H HL]; [injection H as <-; discriminate|]. inversion H.
    + cbn [length] in HW. split; intros [H HL].
      * destruct (ascii_to_byte a0 a1) as [b|] eqn:EB; [|discriminate]. destruct (ascii_to_mem k r) as [l'|] eqn:EM; [|discriminate].
        injection H as <-. cbn [length] in HL. split; [|cbn [length]; auto]. apply byte_iff in EB. destruct EB as (d0 & d1 & H0 & H1 & ->).
        constructor; auto. apply (IH r l'); [lia|]. split; [auto|lia].
      * inversion H as [|c1 c2 d1 d2 h t H1 H2 H3]; subst. cbn [length] in HL.
        rewrite (proj2 (byte_iff a0 a1 (16 * d1 + d2))) by eauto.
        destruct (proj2 (IH r h ltac:(lia))) as [-> _]; [split; [auto|lia]|]. split; [auto|cbn [length]; lia].
Qed.
Lemma by_name_iff : forall w h, (length w <= 64)%nat -> (hash_by_name w = Some h <-> hex_bytes h w /\ length h = 32%nat).
Proof.
  intros w h HW. rewrite <- (mem_iff 32 w h) by lia. unfold hash_by_name. change HASH_LEN with 32%nat. split.
  - destruct (ascii_to_mem 32 w) as [l|]; [|discriminate]. destruct (zlen l =? Z.of_nat 32) eqn:E; [|discriminate]. intros H. injection H as <-.
    split; [auto|]. unfold zlen in E. lia.
  - intros [-> HL]. unfold zlen. rewrite HL. reflexivity.
Qed.

(* ---- printed numbers ---- *)
Lemma print_acc : forall fuel base v acc, print_digits fuel base v acc = print_digits fuel base v [] ++ acc.
Proof.
  induction fuel as [|k IH]; intros base v acc; [reflexivity|]. cbn [print_digits]. cbv zeta. destruct (v / base =? 0); [reflexivity|].
  rewrite (IH base (v / base) (_ :: acc)), (IH base (v / base) [_]), <- app_assoc. reflexivity.
Qed.
Lemma print_ok : forall base, 2 <= base <= 16 -> forall fuel v, 0 <= v < base ^ Z.of_nat fuel -> (0 < fuel)%nat ->
  numeral base (print_digits fuel base v []) v /\ small_letters (print_digits fuel base v []) /\
  (v = 0 /\ print_digits fuel base v [] = [48] \/ 0 < v /\ hd 0 (print_digits fuel base v []) <> 48).
Proof.
  intros base HB fuel. induction fuel as [|k IH]; intros v HV HF; [lia|]. cbn [print_digits]. cbv zeta.
  destruct (nibble_digit base (v mod base)) as [HD HS]; [apply Z.mod_pos_bound; lia|lia|].
  destruct (v / base =? 0) eqn:E.
  - assert (HM : v mod base = v) by (pose proof (Z.div_mod v base); nia). rewrite HM in *. split; [constructor; auto|]. split; [constructor; [exact HS|constructor]|].
    destruct (Z.eq_dec v 0) as [-> |HN]; [left; split; [auto|reflexivity]|]. right. split; [lia|]. cbn [hd]. unfold digit in HD. lia.
  - assert (HQ : 0 <= v / base < base ^ Z.of_nat k).
    { split; [apply Z.div_pos; lia|]. apply Z.div_lt_upper_bound; [lia|]. rewrite Nat2Z.inj_succ, Z.pow_succ_r in HV by lia. lia. }
    destruct k as [|k0]; [cbn [Z.of_nat] in HQ; rewrite Z.pow_0_r in HQ; lia|].
    destruct (IH (v / base) HQ ltac:(lia)) as [H1 [H2 H3]]. set (ds := print_digits (S k0) base (v / base) []) in *.
    rewrite print_acc. fold ds. split; [|split].
    + replace v with (v / base * base + v mod base) at 2 by (pose proof (Z.div_mod v base); lia). constructor; auto.
    + apply Forall_app. split; [auto|constructor; [exact HS|constructor]].
    + right. destruct H3 as [[H3 _]|[H3 H4]]; [lia|]. split; [destruct (Z.eq_dec v 0) as [-> |]; [rewrite Z.div_0_l in H3|]; lia|].
      destruct ds as [|c ds']; [inversion H1; destruct s; discriminate|]. exact H4.
Qed.
Lemma print_d_ok : forall z, 0 <= z < 2 ^ 32 -> numeral_of 10 (print_d z) z.
Proof.
  intros z HZ. unfold print_d. replace (z <? 0) with false by lia. destruct (print_ok 10 ltac:(lia) 64 z) as [H1 [H2 H3]]; [|lia|].
  - split; [lia|]. apply Z.lt_le_trans with (2 ^ 32); [lia|]. vm_compute. discriminate.
  - split; [auto|]. split; [auto|]. destruct H3 as [[_ ->]|[_ H3]]; auto.
Qed.
Lemma print_x_ok : forall z, 0 <= z < 2 ^ 32 -> numeral_of 16 (print_x z) z.
Proof.
  intros z HZ. unfold print_x. destruct (print_ok 16 ltac:(lia) 64 z) as [H1 [H2 H3]]; [|lia|].
  - split; [lia|]. apply Z.lt_le_trans with (2 ^ 32); [lia|]. vm_compute. discriminate.
  - split; [auto|]. split; [auto|]. destruct H3 as [[_ ->]|[_ H3]]; auto.
Qed.

(* a number has one numeral *)
Lemma digit_small : forall base c c' d, base <= 16 -> digit base c d -> digit base c' d -> (c < 65 \/ 90 < c) -> (c' < 65 \/ 90 < c') -> c = c'.
Proof. intros. unfold digit in *. lia. Qed.
Lemma run_ge : forall base a s v, 2 <= base -> 0 < a -> run base a s v -> a * base ^ zlen s <= v < (a + 1) * base ^ zlen s.
Proof.
  intros base a s v HB HA H. induction H as [a|a c d s v HD HR IH].
  - unfold zlen. cbn [length Z.of_nat]. rewrite Z.pow_0_r. lia.
  - unfold digit in HD. assert (HA' : 0 < a * base + d) by nia. specialize (IH HA').
    unfold zlen in *. cbn [length]. rewrite Nat2Z.inj_succ, Z.pow_succ_r by lia. set (P := base ^ Z.of_nat (length s)) in *.
    assert (0 < P) by (apply Z.pow_pos_nonneg; lia). nia.
Qed.
Lemma snoc_cases : forall (s : bytes), s = [] \/ exists a c, s = a ++ [c].
Proof. intros s. destruct s as [|x s]; [auto|]. right. destruct (exists_last (l := x :: s)) as [a [c E]]; [discriminate|eauto]. Qed.
Lemma numeral_zero_or : forall base s v, 2 <= base <= 16 -> numeral_of base s v -> v = 0 /\ s = [48] \/ 0 < v /\ hd 0 s <> 48.
Proof.
  intros base s v HB (HN & HS & HH). apply numeral_run in HN. destruct HN as [H1 HR]. destruct s as [|c s]; [congruence|].
  apply run_inv in HR. destruct HR as [d [HD HR]]. replace (0 * base + d) with d in HR by lia. destruct HH as [HH|HH].
  - cbn [hd] in *. right. split; [|auto]. assert (0 < d) by (unfold digit in HD; lia). pose proof (run_ge base d s v ltac:(lia) H HR).
    assert (0 < base ^ zlen s) by (apply Z.pow_pos_nonneg; [lia|apply zlen_nn]). nia.
  - injection HH as -> ->. left. split; [|auto]. apply run_inv0 in HR. unfold digit in HD. lia.
Qed.
Lemma numeral_one_text : forall base, 2 <= base <= 16 -> forall s s' v, numeral_of base s v -> numeral_of base s' v -> s = s'.
Proof.
  intros base HB s. induction s as [|c s IH] using rev_ind; intros s' v H H'.
  - destruct H as [H _]. inversion H. destruct s; discriminate.
  - destruct (snoc_cases s') as [-> |[a [c' ->]]]; [destruct H' as [H' _]; inversion H'; destruct s0; discriminate|].
    pose proof (numeral_zero_or _ _ _ HB H) as HZ. pose proof (numeral_zero_or _ _ _ HB H') as HZ'.
    destruct HZ as [[Hv E]|[Hv HH]]; destruct HZ' as [[Hv' E']|[Hv' HH']]; try lia; [congruence|].
    destruct H as (HN & HS & _), H' as (HN' & HS' & _). apply Forall_app in HS. apply Forall_app in HS'. destruct HS as [HS HS1], HS' as [HS' HS1'].
    inversion HS1; inversion HS1'; subst. clear HS1 HS1'.
    apply numeral_run in HN. apply numeral_run in HN'. destruct HN as [_ HR], HN' as [_ HR'].
    apply run_last in HR. apply run_last in HR'. destruct HR as (w & d & HR & HD & E), HR' as (w' & d' & HR' & HD' & E').
    assert (w = w' /\ d = d') as [<- <-] by (apply (Z.div_mod_unique base); [left; apply HD|left; apply HD'|lia]).
    assert (c = c') as <- by (eapply digit_small; eauto; lia). f_equal.
    destruct s as [|x s], a as [|y a]; [auto| | |].
    + apply run_inv0 in HR. subst w. cbn [app hd] in HH'. apply run_inv in HR'. destruct HR' as [e [He HR']].
      assert (0 < 0 * base + e) by (unfold digit in He; lia). pose proof (run_ge base _ _ _ ltac:(lia) H HR').
      assert (0 < base ^ zlen a) by (apply Z.pow_pos_nonneg; [lia|apply zlen_nn]). nia.
    + apply run_inv0 in HR'. subst w. cbn [app hd] in HH. apply run_inv in HR. destruct HR as [e [He HR]].
      assert (0 < 0 * base + e) by (unfold digit in He; lia). pose proof (run_ge base _ _ _ ltac:(lia) H HR).
      assert (0 < base ^ zlen s) by (apply Z.pow_pos_nonneg; [lia|apply zlen_nn]). nia.
    + apply (IH (y :: a) w); split; try (apply numeral_run; split; [discriminate|assumption]); split; auto.
Qed.
Lemma numeral_one_value : forall base, base <= 36 -> forall s v v', numeral base s v -> numeral base s v' -> v = v'.
Proof.
  intros base HB s v v' H H'. apply numeral_run in H. apply numeral_run in H'. destruct H as [_ H], H' as [_ H']. revert v' H'.
  induction H as [a|a c d s v HD HR IH]; intros v' H'; [apply run_inv0 in H'; auto|]. apply run_inv in H'. destruct H' as [d' [HD' H']].
  assert (d = d') as <- by (eapply digit_one; eauto). auto.
Qed.
Lemma hex_inv : forall g t, hex_bytes g t -> match g with
  | [] => t = []
  | b :: h => exists c1 c2 d1 d2 u, t = c1 :: c2 :: u /\ b = 16 * d1 + d2 /\ digit 16 c1 d1 /\ digit 16 c2 d2 /\ hex_bytes h u
  end.
Proof. intros g t H. destruct H as [|c1 c2 d1 d2 h t H1 H2 H]; [auto|]. exists c1, c2, d1, d2, t. auto. Qed.
Lemma hex_one_text : forall h t t', hex_bytes h t -> hex_bytes h t' -> small_letters t -> small_letters t' -> t = t'.
Proof.
  induction h as [|b h IH]; intros t t' H H' HS HS'; apply hex_inv in H; apply hex_inv in H'; [congruence|].
  destruct H as (c1 & c2 & d1 & d2 & u & -> & E & H1 & H2 & H), H' as (x1 & x2 & e1 & e2 & u' & -> & E' & K1 & K2 & K).
  pose proof (proj1 H1). pose proof (proj1 H2). pose proof (proj1 K1). pose proof (proj1 K2).
  assert (d1 = e1) by lia. assert (d2 = e2) by lia. subst e1 e2.
  inversion HS as [|? ? A1 A2]; subst. inversion A2 as [|? ? A3 A4]; subst. inversion HS' as [|? ? B1 B2]; subst. inversion B2 as [|? ? B3 B4]; subst.
  f_equal; [eapply (digit_small 16); eauto; lia|]. f_equal; [eapply (digit_small 16); eauto; lia|]. apply IH; auto.
Qed.
Lemma hex_one_hash : forall h h' t, hex_bytes h t -> hex_bytes h' t -> h = h'.
Proof.
  induction h as [|b h IH]; intros h' t H H'; pose proof (hex_len _ _ H) as L; pose proof (hex_len _ _ H') as L'; apply hex_inv in H; apply hex_inv in H';
  destruct h' as [|b' h']; cbn [length] in L, L'; try lia; [auto|].
  destruct H as (c1 & c2 & d1 & d2 & u & E & -> & H1 & H2 & H), H' as (x1 & x2 & e1 & e2 & u' & E' & -> & K1 & K2 & K).
  rewrite E in E'. injection E' as <- <- <-.
  assert (d1 = e1) by (eapply (digit_one 16); eauto; lia). assert (d2 = e2) by (eapply (digit_one 16); eauto; lia). subst. f_equal. eauto.
Qed.

(* ---- reading ---- *)
Lemma scan_lit_iff : forall p s r, scan_lit p s = Some r <-> s = p ++ r.
Proof.
  induction p as [|a p IH]; intros s r; cbn [scan_lit app]; [split; [intros H; injection H; auto|intros ->; auto]|].
  destruct s as [|c s]; [split; discriminate|]. destruct (a =? c) eqn:E.
  - rewrite IH. assert (a = c) by lia. subst. split; [intros ->; auto|intros H; injection H; auto].
  - split; [discriminate|]. intros H. injection H as H _. lia.
Qed.
Lemma numeral_first : forall base ds v, base <= 36 -> numeral base ds v -> exists c r, ds = c :: r /\ exists d, digit base c d.
Proof.
  intros base ds v HB H. apply numeral_run in H. destruct H as [H1 HR]. destruct ds as [|c r]; [congruence|]. apply run_inv in HR.
  destruct HR as [d [HD _]]. exists c, r. eauto.
Qed.
Lemma sign_iff : forall s neg r, (forall c t, s = c :: t -> ~ space c) ->
  (scan_sign s = (neg, r) -> exists sign, s = sign ++ r /\ forall v, signed sign v (if neg then - v else v)).
Proof.
  intros s neg r _. unfold scan_sign. destruct s as [|c t].
  - intros H. injection H as <- <-. exists []. split; [auto|]. intros v. left; auto.
  - destruct (c =? 45) eqn:E1; [intros H; injection H as <- <-; assert (c = 45) by lia; subst; exists [45]; split; [auto|intros v; right; right; auto]|].
    destruct (c =? 43) eqn:E2; [intros H; injection H as <- <-; assert (c = 43) by lia; subst; exists [43]; split; [auto|intros v; right; left; auto]|].
    intros H. injection H as <- <-. exists []. split; [auto|]. intros v. left; auto.
Qed.
Lemma sign_app : forall sign v w c t, signed sign v w -> c <> 45 -> c <> 43 ->
  scan_sign (sign ++ c :: t) = (match sign with [45] => true | _ => false end, c :: t) /\
  w = (if match sign with [45] => true | _ => false end then - v else v).
Proof.
  intros sign v w c t H H1 H2. destruct H as [[-> ->]|[[-> ->]|[-> ->]]]; cbn [app scan_sign]; auto.
  replace (c =? 45) with false by lia. replace (c =? 43) with false by lia. auto.
Qed.
Lemma skip_hd : forall s c t, skip_space s = c :: t -> ~ space c.
Proof.
  induction s as [|x s IH]; intros c t; cbn [skip_space]; [discriminate|]. change (one_of SPACES x) with (is_space x).
  pose proof (is_space_iff x). destruct (is_space x); [apply IH|]. intros H'. injection H' as <- _. intuition congruence.
Qed.

Lemma s32_spec : forall x, - 2 ^ 31 <= s32 x < 2 ^ 31 /\ exists k, s32 x = k * 2 ^ 32 + x.
Proof.
  intros x. unfold s32. cbv zeta. pose proof (Z.mod_pos_bound x (2 ^ 32) ltac:(lia)). pose proof (Z.div_mod x (2 ^ 32) ltac:(lia)).
  destruct (x mod 2 ^ 32 <? 2 ^ 31) eqn:E; split; try lia; [exists (- (x / 2 ^ 32))|exists (- (x / 2 ^ 32) - 1)]; lia.
Qed.
Lemma s32_unique : forall x z, - 2 ^ 31 <= z < 2 ^ 31 -> (exists k, z = k * 2 ^ 32 + x) -> s32 x = z.
Proof. intros x z HZ [k Hk]. destruct (s32_spec x) as [H1 [j H2]]. assert (k = j) by nia. subst. lia. Qed.
Lemma u32_spec : forall x, 0 <= u32 x < 2 ^ 32 /\ exists k, u32 x = k * 2 ^ 32 + x.
Proof. intros x. unfold u32. pose proof (Z.mod_pos_bound x (2 ^ 32) ltac:(lia)). pose proof (Z.div_mod x (2 ^ 32) ltac:(lia)). split; [lia|]. exists (- (x / 2 ^ 32)). lia. Qed.
Lemma u32_unique : forall x z, 0 <= z < 2 ^ 32 -> (exists k, z = k * 2 ^ 32 + x) -> u32 x = z.
Proof. intros x z HZ [k Hk]. destruct (u32_spec x) as [H1 [j H2]]. assert (k = j) by nia. subst. lia. Qed.

Definition stops (c : Z) : Prop := c = 46 \/ c = 58.
Lemma stop_no_digit : forall base c r, base <= 36 -> stops c -> ~ goes_on base (c :: r).
Proof. intros base c r HB HC (x & y & d & E & HD). injection E as <- <-. unfold stops, digit in *. lia. Qed.

Lemma scan_d_iff : forall s z c r, stops c -> (scan_d s = Some (z, c :: r) <-> exists f, s = f ++ c :: r /\ int_field f z).
Proof.
  intros s z c r HC. split.
  - unfold scan_d. destruct (skip_spec s) as [sp [E HSP]]. remember (skip_space s) as s0 eqn:E0.
    destruct (scan_sign s0) as [neg s1] eqn:ES. destruct (sign_iff s0 neg s1) as [sign [E1 HSG]]; [intros x t Hx; rewrite E0 in Hx; eapply skip_hd; eauto|auto|].
    destruct (has_digit 10 s1) eqn:EH; [|discriminate]. apply has_digit_iff in EH; [|lia].
    destruct (take_spec 10 ltac:(lia) s1 0) as (ds & v & rest & E2 & HR & HN & ->). cbv zeta. intros H.
    assert (HZ := f_equal (fun o => match o with Some (a, _) => a | None => 0 end) H).
    assert (HRest := f_equal (fun o => match o with Some (_, a) => a | None => [] end) H). cbv beta iota in HZ, HRest. clear H. subst rest.
    exists (sp ++ sign ++ ds). split; [rewrite <- !app_assoc; congruence|].
    assert (ds <> []). { intros ->. cbn [app] in E2. subst s1. eapply stop_no_digit; [|eassumption|eassumption]; lia. }
    exists sp, sign, ds, v, (if neg then - v else v). split; [auto|]. split; [auto|]. split; [apply numeral_run; auto|]. split; [auto|].
    subst z. apply s32_spec.
  - intros (f & -> & (sp & sign & ds & v & w & -> & HSP & HN & HSG & HZ & HK)).
    destruct (numeral_first 10 ds v ltac:(lia) HN) as (x & y & E & d & HD). assert (HX : 48 <= x <= 57) by (unfold digit in HD; lia).
    unfold scan_d. rewrite <- !app_assoc. rewrite skip_app; [|auto|].
    2: { intros x0 t Hx. assert (x0 = x \/ x0 = 43 \/ x0 = 45) as HX0.
         { destruct HSG as [[-> _]|[[-> _]|[-> _]]]; cbn [app] in Hx; [rewrite E in Hx; cbn [app] in Hx|..]; injection Hx as <- _; auto. }
         unfold space. lia. }
    rewrite E. cbn [app]. destruct (sign_app sign v w x (y ++ c :: r) HSG) as [-> EW]; [lia|lia|].
    replace (has_digit 10 (x :: y ++ c :: r)) with true.
    2: { symmetry. apply has_digit_iff; [lia|]. exists x, (y ++ c :: r), d. auto. }
    change (x :: y ++ c :: r) with ((x :: y) ++ c :: r). rewrite <- E. apply numeral_run in HN. destruct HN as [_ HR].
    rewrite (take_run 10 ltac:(lia) ds 0 v (c :: r) HR); [|apply stop_no_digit; [lia|auto]]. cbv zeta. rewrite <- EW.
    rewrite (s32_unique _ z); auto.
Qed.

Lemma scan_x_iff : forall s z c r, stops c -> (scan_x s = Some (z, c :: r) <-> exists f, s = f ++ c :: r /\ hex_field f z).
Proof.
  intros s z c r HC. set (val := fun (neg : bool) (v : Z) => if v >? 2 ^ 64 - 1 then 2 ^ 32 - 1 else u32 (if neg then - v else v)).
  assert (HV : forall sign neg v, (forall u, signed sign u (if neg : bool then - u else u)) -> 0 <= v -> exists w,
    signed sign v w /\ 0 <= val neg v < 2 ^ 32 /\ (v < 2 ^ 64 /\ (exists k, val neg v = k * 2 ^ 32 + w) \/ 2 ^ 64 <= v /\ val neg v = 2 ^ 32 - 1)).
  { intros sign neg v HS HP. exists (if neg then - v else v). split; [auto|]. unfold val. destruct (v >? 2 ^ 64 - 1) eqn:EV; [split; [lia|right; lia]|].
    destruct (u32_spec (if neg then - v else v)) as [A B]. split; [auto|]. left. split; [lia|auto]. }
  assert (HV2 : forall neg v w, w = (if neg : bool then - v else v) -> 0 <= z < 2 ^ 32 ->
    (v < 2 ^ 64 /\ (exists k, z = k * 2 ^ 32 + w) \/ 2 ^ 64 <= v /\ z = 2 ^ 32 - 1) -> val neg v = z).
  { intros neg v w -> HZ H. unfold val. destruct (v >? 2 ^ 64 - 1) eqn:EV; [lia|]. apply u32_unique; auto. destruct H as [[_ H]|[H _]]; [auto|lia]. }
  assert (HRN : forall acc ds v, 0 <= acc -> run 16 acc ds v -> 0 <= v).
  { intros acc ds v HA HR. induction HR; [auto|]. apply IHHR. unfold digit in *. lia. }
  split.
  - unfold scan_x. destruct (skip_spec s) as [sp [E HSP]]. remember (skip_space s) as s0 eqn:E0.
    destruct (scan_sign s0) as [neg s1] eqn:ES. destruct (sign_iff s0 neg s1) as [sign [E1 HSG]]; [intros x t Hx; rewrite E0 in Hx; eapply skip_hd; eauto|auto|].
    cbv zeta.
    set (s2 := match s1 with z0 :: x :: r0 => if (z0 =? 48) && ((x =? 120) || (x =? 88)) then Some r0 else None | _ => None end).
    assert (HS2 : match s2 with Some r0 => exists pre, (pre = [48; 120] \/ pre = [48; 88]) /\ s1 = pre ++ r0 | None => True end).
    { unfold s2. destruct s1 as [|z0 [|x r0]]; auto. destruct ((z0 =? 48) && ((x =? 120) || (x =? 88))) eqn:EX; auto.
      assert (z0 = 48 /\ (x = 120 \/ x = 88)) as [-> [-> | ->]] by lia; [exists [48; 120]|exists [48; 88]]; auto. }
    destruct s2 as [r0|].
    + destruct HS2 as [pre [HP E2]]. destruct (take_spec 16 ltac:(lia) r0 0) as (ds & v & rest & E3 & HR & HN & ->). intros H.
      assert (HZ := f_equal (fun o => match o with Some (a, _) => a | None => 0 end) H).
      assert (HRest := f_equal (fun o => match o with Some (_, a) => a | None => [] end) H). cbv beta iota in HZ, HRest. clear H. subst rest.
      exists (sp ++ sign ++ pre ++ ds). split; [rewrite <- !app_assoc; congruence|].
      destruct (HV sign neg v HSG) as [w [H1 H2]]; [eapply HRN; [|eauto]; lia|]. fold (val neg v) in HZ. rewrite HZ in H2.
      exists sp, sign, pre, ds, v, w. split; [auto|]. split; [auto|]. split; [right; split; [auto|]|split; [auto|exact H2]].
      destruct ds as [|x ds]; [right; split; [auto|apply run_inv0 in HR; auto]|]. left. apply numeral_run. split; [discriminate|auto].
    + destruct (has_digit 16 s1) eqn:EH; [|discriminate]. apply has_digit_iff in EH; [|lia].
      destruct (take_spec 16 ltac:(lia) s1 0) as (ds & v & rest & E3 & HR & HN & ->). intros H.
      assert (HZ := f_equal (fun o => match o with Some (a, _) => a | None => 0 end) H).
      assert (HRest := f_equal (fun o => match o with Some (_, a) => a | None => [] end) H). cbv beta iota in HZ, HRest. clear H. subst rest.
      assert (ds <> []). { intros ->. cbn [app] in E3. rewrite E3 in EH. eapply stop_no_digit; [|eassumption|eassumption]; lia. }
      exists (sp ++ sign ++ ds). split; [rewrite <- !app_assoc; congruence|].
      destruct (HV sign neg v HSG) as [w [H1 H2]]; [eapply HRN; [|eauto]; lia|]. fold (val neg v) in HZ. rewrite HZ in H2.
      exists sp, sign, [], ds, v, w. split; [auto|]. split; [auto|]. split; [left; split; [auto|apply numeral_run; auto]|]. split; [auto|exact H2].
  - intros (f & -> & (sp & sign & pre & ds & v & w & -> & HSP & HF & HSG & HZ & HK)).
    assert (HX : exists x y, pre ++ ds ++ c :: r = x :: y /\ ~ space x /\ x <> 45 /\ x <> 43).
    { destruct HF as [[-> HN]|[[-> | ->] _]]; [|eexists; eexists; split; [reflexivity|]; unfold space; lia..].
      destruct (numeral_first 16 ds v ltac:(lia) HN) as (x & y & -> & d & HD). exists x, (y ++ c :: r). split; [auto|]. unfold digit in HD. unfold space. lia. }
    destruct HX as (x & y & EX & HX1 & HX2 & HX3).
    unfold scan_x. rewrite <- !app_assoc. rewrite skip_app; [|auto|].
    2: { intros x0 t Hx. rewrite EX in Hx. destruct HSG as [[-> _]|[[-> _]|[-> _]]]; cbn [app] in Hx; injection Hx as <- _; [auto|unfold space; lia..]. }
    rewrite EX. destruct (sign_app sign v w x y HSG) as [-> EW]; [auto|auto|]. rewrite <- EX. cbv beta iota zeta.
    destruct HF as [[-> HN]|[HP HF]].
    + cbn [app]. pose proof HN as HN0. apply numeral_run in HN. destruct HN as [HNE HR].
      match goal with |- match ?m with Some _ => _ | None => _ end = _ => assert (HS2 : m = None) end.
      { destruct ds as [|a [|b ds]]; [congruence| |]; cbn [app] in EX |- *; injection EX as <- <-.
        - assert (c <> 120 /\ c <> 88) by (unfold stops in HC; lia). cbv beta iota. match goal with |- (if ?q then _ else _) = None => replace q with false by lia end. reflexivity.
        - apply run_inv in HR. destruct HR as [d [_ HR]]. apply run_inv in HR. destruct HR as [d' [HD' _]].
          assert (b <> 120 /\ b <> 88) by (unfold digit in HD'; lia). cbv beta iota. match goal with |- (if ?q then _ else _) = None => replace q with false by lia end. reflexivity. }
      rewrite HS2. replace (has_digit 16 (ds ++ c :: r)) with true.
      2: { symmetry. apply has_digit_iff; [lia|]. destruct (numeral_first 16 ds v ltac:(lia) HN0) as (a & b & -> & d & HD). exists a, (b ++ c :: r), d. auto. }
      rewrite (take_run 16 ltac:(lia) ds 0 v (c :: r) HR); [|apply stop_no_digit; [lia|auto]]. fold (val (match sign with [45] => true | _ => false end) v).
      rewrite (HV2 _ v w); auto.
    + assert (HR : run 16 0 ds v) by (destruct HF as [HF|[-> ->]]; [apply numeral_run in HF; tauto|constructor]).
      destruct HP as [-> | ->]; cbn [app] in EX |- *; injection EX as <- <-; cbn [Z.eqb Pos.eqb andb orb];
      rewrite (take_run 16 ltac:(lia) ds 0 v (c :: r) HR); try (apply stop_no_digit; [lia|auto]); fold (val (match sign with [45] => true | _ => false end) v);
      rewrite (HV2 _ v w); auto.
Qed.

Lemma word_spec : forall n s, exists rest, s = take_word n s ++ rest /\ (length (take_word n s) <= n)%nat.
Proof.
  induction n as [|n IH]; intros s; cbn [take_word]; [exists s; auto|]. destruct s as [|c s]; [exists []; split; [auto|cbn [length]; lia]|].
  destruct (one_of SPACES c); [exists (c :: s); split; [auto|cbn [length]; lia]|]. destruct (IH s) as [rest [E HL]]. exists rest. cbn [app length]. split; [congruence|lia].
Qed.
Lemma word_app : forall w rest, Forall (fun c => ~ space c) w -> take_word (length w) (w ++ rest) = w.
Proof.
  intros w rest H. induction H as [|c w HC H IH]; [destruct rest; reflexivity|]. cbn [length app take_word]. change (one_of SPACES c) with (is_space c).
  pose proof (is_space_iff c). destruct (is_space c); [intuition congruence|]. f_equal. auto.
Qed.
Lemma hex_no_space : forall h t, hex_bytes h t -> Forall (fun c => ~ space c) t.
Proof. intros h t H. induction H; [constructor|]. unfold digit in *. constructor; [unfold space; lia|]. constructor; [unfold space; lia|]. auto. Qed.

Lemma check_iff : forall c, check_ctype_size (ca_type c) (ca_size c) = true <-> whole_size c.
Proof.
  intros c. unfold check_ctype_size, whole_size, CT_BOOTREC, CT_ENCSEG, CT_PACKIDX, BOOTREC_SIZE, KB_SIZE.
  assert (HM : ca_size c mod 1024 = 0 <-> exists k, ca_size c = 1024 * k).
  { split; [intros H; exists (ca_size c / 1024); lia|intros [k ->]; rewrite Z.mul_comm; apply Z.mod_mul; lia]. }
  destruct (ca_type c =? 1) eqn:E1; [rewrite Z.eqb_eq; split; [intros; left; lia|intros [H|[H _]]; lia]|].
  destruct ((ca_type c =? 3) || (ca_type c =? 2)) eqn:E2.
  - rewrite Z.eqb_eq, HM. split; [intros H; right; split; [lia|auto]|intros [[H _]|[_ H]]; [lia|auto]].
  - split; [discriminate|]. intros [[H _]|[H _]]; lia.
Qed.

Lemma scan_iff : forall s c, (exists w, scan_caddr s = Some (1, ca_type c, ca_size c, w) /\ hash_by_name w = Some (ca_hash c)) <->
  exists ve ty sz sp hx rest, s = intro_text ++ ve ++ [46] ++ ty ++ [46] ++ sz ++ [58] ++ sp ++ hx ++ rest /\
      int_field ve 1 /\ int_field ty (ca_type c) /\ hex_field sz (ca_size c) /\ Forall space sp /\
      hex_bytes (ca_hash c) hx /\ length (ca_hash c) = 32%nat.
Proof.
  intros s c. split.
  - intros [w [H HH]]. unfold scan_caddr in H.
    destruct (scan_lit s_silofs_v s) as [s1|] eqn:E1; [|discriminate]. destruct (scan_d s1) as [[vers s2]|] eqn:E2; [|discriminate].
    destruct (scan_lit [46] s2) as [s3|] eqn:E3; [|discriminate]. destruct (scan_d s3) as [[ctyp s4]|] eqn:E4; [|discriminate].
    destruct (scan_lit [46] s4) as [s5|] eqn:E5; [|discriminate]. destruct (scan_x s5) as [[size s6]|] eqn:E6; [|discriminate].
    destruct (scan_lit [58] s6) as [s7|] eqn:E7; [|discriminate]. destruct (scan_s 64 s7) as [w'|] eqn:E8; [|discriminate].
    injection H as H1 H2 H3 H4. subst vers ctyp size w'.
    apply scan_lit_iff in E1, E3, E5, E7. cbn [app] in E3, E5, E7. subst s2 s4 s6.
    apply scan_d_iff in E2, E4; try (left; reflexivity). apply scan_x_iff in E6; [|right; reflexivity].
    destruct E2 as [ve [-> HVE]], E4 as [ty [-> HTY]], E6 as [sz [-> HSZ]].
    unfold scan_s in E8. destruct (skip_spec s7) as [sp [ES HSP]]. destruct (word_spec 64 (skip_space s7)) as [rest [EW HL]].
    assert (EW2 : take_word 64 (skip_space s7) = w) by (destruct (take_word 64 (skip_space s7)); [discriminate|injection E8; auto]).
    rewrite EW2 in EW, HL. apply by_name_iff in HH; [|auto]. destruct HH as [HH HHL].
    exists ve, ty, sz, sp, w, rest. split; [|tauto]. rewrite E1. change s_silofs_v with intro_text. cbn [app]. rewrite <- EW, <- ES. reflexivity.
  - intros (ve & ty & sz & sp & hx & rest & -> & HVE & HTY & HSZ & HSP & HH & HL). exists hx.
    pose proof (hex_len _ _ HH) as HLX. rewrite HL in HLX. split; [|apply by_name_iff; [lia|auto]].
    unfold scan_caddr. rewrite (proj2 (scan_lit_iff s_silofs_v _ _) eq_refl). cbn [app].
    rewrite (proj2 (scan_d_iff (ve ++ _) 1 46 _ ltac:(left; reflexivity))) by (eexists; split; [reflexivity|auto]).
    cbn [scan_lit Z.eqb Pos.eqb].
    rewrite (proj2 (scan_d_iff (ty ++ _) (ca_type c) 46 _ ltac:(left; reflexivity))) by (eexists; split; [reflexivity|auto]).
    cbn [scan_lit Z.eqb Pos.eqb].
    rewrite (proj2 (scan_x_iff (sz ++ _) (ca_size c) 58 _ ltac:(right; reflexivity))) by (eexists; split; [reflexivity|auto]).
    cbn [scan_lit Z.eqb Pos.eqb]. unfold scan_s. pose proof (hex_no_space _ _ HH) as HNS. rewrite skip_app; [|auto|].
    2: { intros x t E. destruct hx as [|y hx]; [discriminate|]. cbn [app] in E. injection E as <- _. inversion HNS; auto. }
    replace 64%nat with (length hx) by lia. rewrite word_app by auto. destruct hx; [discriminate|reflexivity].
Qed.

Lemma from_str_iff : forall s c, caddr_from_str s = Some c <-> (length s < 512)%nat /\ whole_size c /\
  exists w, scan_caddr s = Some (1, ca_type c, ca_size c, w) /\ hash_by_name w = Some (ca_hash c).
Proof.
  intros s c. unfold caddr_from_str, STRBUF_SIZE, zlen. split.
  - destruct (Z.of_nat (length s) >=? 512) eqn:EL; [discriminate|]. destruct (scan_caddr s) as [[[[vers ctyp] size] w]|] eqn:ES; [|discriminate].
    unfold FMT_VERSION. destruct (vers =? 1) eqn:EV; [|discriminate]. destruct (check_ctype_size ctyp size) eqn:EC; [|discriminate]. cbn [negb].
    destruct (hash_by_name w) as [h|] eqn:EH; [|discriminate]. intros H. injection H as <-. cbn [ca_type ca_size ca_hash]. split; [lia|].
    split; [apply check_iff; exact EC|]. exists w. split; [repeat f_equal; lia|auto].
  - intros (HL & HW & w & -> & ->). replace (Z.of_nat (length s) >=? 512) with false by lia. rewrite (proj2 (check_iff c) HW).
    cbn [negb]. unfold FMT_VERSION. cbn [Z.eqb Pos.eqb negb]. destruct c; reflexivity.
Qed.

Lemma forallb_ascii : forall l, forallb chr_isascii l = true <-> Forall (fun x => 0 <= x < 128) l.
Proof. intros l. rewrite forallb_forall, Forall_forall. unfold chr_isascii. split; intros H x HX; specialize (H x HX); lia. Qed.

Lemma by_name_taken : forall t c, zlen t < NPOS -> (caddr_by_name t = Some c <-> taken t c).
Proof.
  intros t c HL. unfold caddr_by_name. cbv zeta. split.
  - intros H. destruct (strip_cases t) as [HS|(lead & body & trail & E & H1 & H2 & H3 & H4)].
    + rewrite strip_all in H by auto. cbn in H. discriminate.
    + rewrite E, strip_eq in H by (auto; rewrite <- E; auto). destruct (forallb chr_isascii body) eqn:EA; [|discriminate].
      apply forallb_ascii in EA. apply from_str_iff in H. destruct H as (HB & HW & H). apply scan_iff in H.
      destruct H as (ve & ty & sz & sp & hx & rest & EB & HVE & HTY & HSZ & HSP & HH & HHL).
      exists lead, body, trail. split; [auto|]. split; [auto|]. split; [auto|]. split; [auto|]. split; [auto|]. split; [auto|]. split; [auto|].
      exists ve, ty, sz, sp, hx, rest. tauto.
  - intros (lead & body & trail & -> & H1 & H2 & H3 & H4 & HA & HB & ve & ty & sz & sp & hx & rest & EB & HVE & HTY & HSZ & HSP & HH & HHL & HW).
    rewrite strip_eq by auto. rewrite (proj2 (forallb_ascii body) HA). apply from_str_iff. split; [auto|]. split; [auto|]. apply scan_iff.
    exists ve, ty, sz, sp, hx, rest. tauto.
Qed.

(* ---- names ---- *)
Lemma numeral_bound : forall base s v, 2 <= base <= 16 -> numeral_of base s v -> v < 2 ^ 32 -> (length s <= 32)%nat.
Proof.
  intros base s v HB H HV. destruct (numeral_zero_or _ _ _ HB H) as [[_ ->]|[HP HH]]; [cbn [length]; lia|].
  destruct H as [H _]. apply numeral_run in H. destruct H as [HN HR]. destruct s as [|c s]; [congruence|]. apply run_inv in HR. destruct HR as [d [HD HR]].
  cbn [hd] in HH. assert (HP2 : 0 < 0 * base + d) by (unfold digit in HD; lia). pose proof (run_ge base _ s v ltac:(lia) HP2 HR) as HG.
  assert (HPW : 2 ^ zlen s <= base ^ zlen s) by (apply Z.pow_le_mono_l; lia). assert (HPP : 0 < base ^ zlen s) by (apply Z.pow_pos_nonneg; [lia|apply zlen_nn]).
  assert (H2 : 2 ^ zlen s < 2 ^ 32) by nia. apply Z.pow_lt_mono_r_iff in H2; [|lia|lia]. unfold zlen in H2. cbn [length]. lia.
Qed.
Lemma name_made : forall c, sound_caddr c -> name_of c (caddr_to_name c).
Proof.
  intros c (HL & HB & HS & HT). unfold caddr_to_name, caddr_to_str. cbv zeta.
  assert (HTY : numeral_of 10 (print_d (ca_type c)) (ca_type c)) by (apply print_d_ok; lia).
  assert (HSZ : numeral_of 16 (print_x (ca_size c)) (ca_size c)) by (apply print_x_ok; lia).
  destruct (hash_out (ca_hash c) 511 HB) as [HH HHS]; [unfold zlen; lia|]. fold (hash_to_name (ca_hash c)) in HH, HHS.
  pose proof (numeral_bound 10 _ _ ltac:(lia) HTY ltac:(lia)). pose proof (numeral_bound 16 _ _ ltac:(lia) HSZ ltac:(lia)). pose proof (hex_len _ _ HH) as HHL.
  change (print_d FMT_VERSION) with [49].
  match goal with |- name_of c (if ?b then _ else _) => replace b with true end.
  2: { symmetry. rewrite Z.ltb_lt. unfold zlen, STRBUF_SIZE. rewrite !app_length. cbn [length s_silofs_v]. lia. }
  exists (print_d (ca_type c)), (print_x (ca_size c)), (hash_to_name (ca_hash c)). split; [|tauto].
  change s_silofs_v with intro_text. rewrite <- !app_assoc. reflexivity.
Qed.
Lemma numeral_no : forall base s v x, base <= 36 -> numeral base s v -> stops x -> ~ In x s.
Proof.
  intros base s v x HB H HX HI. apply numeral_run in H. destruct H as [_ HR]. induction HR as [a|a c d s v HD HR IH]; [destruct HI|].
  destruct HI as [<- |HI]; [|auto]. unfold stops, digit in *. lia.
Qed.
Lemma cut_same : forall (a a' : bytes) x b b', ~ In x a -> ~ In x a' -> a ++ x :: b = a' ++ x :: b' -> a = a' /\ b = b'.
Proof.
  induction a as [|y a IH]; intros [|y' a'] x b b' HA HA' E; cbn [app] in E.
  - injection E; auto.
  - injection E as <- _. exfalso. apply HA'. left; auto.
  - injection E as -> _. exfalso. apply HA. left; auto.
  - injection E as <- E. destruct (IH a' x b b') as [-> ->]; auto; intros HI; [apply HA|apply HA']; right; auto.
Qed.
Lemma name_one_addr : forall c c' t, name_of c t -> name_of c' t -> c = c'.
Proof.
  intros c c' t (ty & sz & hx & E & HT & HS & HH & _) (ty' & sz' & hx' & E' & HT' & HS' & HH' & _). rewrite E in E'. cbn [app intro_text] in E'.
  apply (f_equal (skipn 10)) in E'. cbn [skipn] in E'. destruct HT as [HT _], HT' as [HT' _], HS as [HS _], HS' as [HS' _].
  apply cut_same in E'; [|eapply numeral_no; [|eassumption|left; reflexivity]; lia..]. destruct E' as [<- E'].
  apply cut_same in E'; [|eapply numeral_no; [|eassumption|right; reflexivity]; lia..]. destruct E' as [<- <-].
  assert (ca_type c = ca_type c') by (apply (numeral_one_value 10 ltac:(lia) ty); auto).
  assert (ca_size c = ca_size c') by (apply (numeral_one_value 16 ltac:(lia) sz); auto).
  assert (ca_hash c = ca_hash c') by (eapply hex_one_hash; eauto). destruct c, c'. cbn in *. congruence.
Qed.
Lemma name_one_text : forall c t t', name_of c t -> name_of c t' -> t = t'.
Proof.
  intros c t t' (ty & sz & hx & -> & HT & HS & HH & HL) (ty' & sz' & hx' & -> & HT' & HS' & HH' & HL').
  rewrite (numeral_one_text 10 ltac:(lia) ty ty' _ HT HT'), (numeral_one_text 16 ltac:(lia) sz sz' _ HS HS'), (hex_one_text _ _ _ HH HH' HL HL'). reflexivity.
Qed.

Lemma numeral_ascii : forall base s v, base <= 36 -> numeral base s v -> Forall (fun x => 0 <= x < 128) s.
Proof.
  intros base s v HB H. apply numeral_run in H. destruct H as [_ HR].
  assert (HG : forall a, run base a s v -> Forall (fun x => 0 <= x < 128) s); [|eauto]. clear HR. intros a HR.
  induction HR; [constructor|]. constructor; [|auto]. cbv beta. destruct H as [H1 H2]. lia.
Qed.
Lemma hex_ascii : forall h t, hex_bytes h t -> Forall (fun x => 0 <= x < 128) t.
Proof. intros h t H. induction H; [constructor|]. unfold digit in *. constructor; [lia|]. constructor; [lia|]. auto. Qed.
Lemma name_taken : forall c t lead trail, sound_caddr c -> whole_size c -> name_of c t -> Forall space lead -> Forall space trail ->
  taken (lead ++ t ++ trail) c.
Proof.
  intros c t lead trail (HL & HB & HS & HT) HW (ty & sz & hx & E & HTY & HSZ & HH & HHS) HLD HTR. exists lead, t, trail.
  split; [auto|]. split; [auto|]. split; [auto|].
  pose proof (hex_len _ _ HH) as HHL. rewrite HL in HHL.
  pose proof (numeral_bound 10 _ _ ltac:(lia) HTY ltac:(lia)). pose proof (numeral_bound 16 _ _ ltac:(lia) HSZ ltac:(lia)).
  split; [rewrite E; cbn; unfold space; lia|]. split.
  { destruct (snoc_cases hx) as [-> |[a [x EX]]]; [discriminate|].
    replace t with ((intro_text ++ [49; 46] ++ ty ++ [46] ++ sz ++ [58] ++ a) ++ [x]) by (rewrite E, EX, <- !app_assoc; reflexivity). rewrite last_last.
    pose proof (hex_no_space _ _ HH) as HN. rewrite EX in HN. apply Forall_app in HN. destruct HN as [_ HN]. inversion HN; auto. }
  split.
  { rewrite E. repeat (apply Forall_app; split); try (repeat constructor; lia); [eapply (numeral_ascii 10); [lia|apply HTY]|eapply (numeral_ascii 16); [lia|apply HSZ]|eapply hex_ascii; eauto]. }
  split; [rewrite E, !app_length; cbn [length intro_text]; lia|].
  exists [49], ty, sz, [], hx, []. split; [rewrite E, app_nil_r; reflexivity|].
  split. { exists [], [], [49], 1, 1. split; [auto|]. split; [constructor|]. split; [constructor; unfold digit; lia|]. split; [left; auto|]. split; [lia|]. exists 0. try rewrite Z.min_r by lia; try rewrite Z.max_r by lia; lia. }
  split. { exists [], [], ty, (ca_type c), (ca_type c). split; [auto|]. split; [constructor|]. split; [apply HTY|]. split; [left; auto|]. split; [lia|]. exists 0. try rewrite Z.min_r by lia; try rewrite Z.max_r by lia; lia. }
  split. { exists [], [], [], sz, (ca_size c), (ca_size c). split; [auto|]. split; [constructor|]. split; [left; split; [auto|apply HSZ]|]. split; [left; auto|]. split; [lia|]. left. split; [lia|]. exists 0. lia. }
  split; [constructor|]. auto.
Qed.
