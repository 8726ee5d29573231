From Verif Require Import Base AddrModel AddrProofs AsciiModel AsciiProofs Base64Proofs LtextModel LtextSpec.

Lemma nib_mod : forall n, nibble_to_ascii n = nibble_to_ascii (n mod 16).
Proof.
  intros n. unfold nibble_to_ascii. change 15 with (Z.ones 4). rewrite !Z.land_ones by lia. change (2 ^ 4) with 16.
  rewrite Z.mod_mod by lia. reflexivity.
Qed.
Definition nib_ok (n : Z) : bool :=
  let c := nibble_to_ascii n in
  (ascii_to_nibble c =? n) && negb (isspace c) && negb (c =? 45) && negb (c =? 43) && negb (tolower c =? 120) &&
  isxdigit c && (((48 <=? c) && (c <=? 57)) || ((97 <=? c) && (c <=? 102))).
Lemma nib_all : forall n, nib_ok (n mod 16) = true.
Proof. intros n. apply (all_small 16); [vm_compute; reflexivity|]. pose proof (Z.mod_pos_bound n 16). simpl. lia. Qed.

(* a digit that is printed *)
Record dig (c n : Z) : Prop := mkDig {
  d_val : ascii_to_nibble c = n; d_sp : isspace c = false; d_m : c =? 45 = false; d_p : c =? 43 = false;
  d_x : tolower c =? 120 = false; d_hex : isxdigit c = true; d_plain : plain c }.
Lemma nib_dig : forall n, dig (nibble_to_ascii n) (n mod 16).
Proof.
  intros n. rewrite nib_mod. pose proof (nib_all n) as H. unfold nib_ok in H. cbv zeta in H.
  repeat (apply andb_true_iff in H; destruct H as [H ?]).
  constructor; try (apply negb_true_iff; assumption); try assumption.
  - apply Z.eqb_eq; assumption.
  - unfold plain. lia.
Qed.

Lemma hex8_scan : forall v r, 0 <= v < 2 ^ 32 -> scan_x 8 (hex8 v ++ r) = Some (v, r).
Proof.
  intros v r HV. unfold hex8. cbn [map app].
  pose proof (nib_dig (Z.shiftr v 28)) as D0. pose proof (nib_dig (Z.shiftr v 24)) as D1.
  pose proof (nib_dig (Z.shiftr v 20)) as D2. pose proof (nib_dig (Z.shiftr v 16)) as D3.
  pose proof (nib_dig (Z.shiftr v 12)) as D4. pose proof (nib_dig (Z.shiftr v 8)) as D5.
  pose proof (nib_dig (Z.shiftr v 4)) as D6. pose proof (nib_dig (Z.shiftr v 0)) as D7.
  rewrite !Z.shiftr_div_pow2 in * by lia.
  set (c0 := nibble_to_ascii (v / 2 ^ 28)) in *. set (c1 := nibble_to_ascii (v / 2 ^ 24)) in *.
  set (c2 := nibble_to_ascii (v / 2 ^ 20)) in *. set (c3 := nibble_to_ascii (v / 2 ^ 16)) in *.
  set (c4 := nibble_to_ascii (v / 2 ^ 12)) in *. set (c5 := nibble_to_ascii (v / 2 ^ 8)) in *.
  set (c6 := nibble_to_ascii (v / 2 ^ 4)) in *. set (c7 := nibble_to_ascii (v / 2 ^ 0)) in *.
  clearbody c0 c1 c2 c3 c4 c5 c6 c7.
  unfold scan_x. cbn [skip_ws]. rewrite (d_sp _ _ D0). cbv zeta. cbn [nth]. rewrite (d_m _ _ D0), (d_p _ _ D0). cbn [orb].
  cbn [nth]. rewrite (d_x _ _ D1), andb_false_r. cbn [andb]. cbn [run].
  rewrite (d_hex _ _ D0), (d_hex _ _ D1), (d_hex _ _ D2), (d_hex _ _ D3), (d_hex _ _ D4), (d_hex _ _ D5), (d_hex _ _ D6), (d_hex _ _ D7).
  assert (ER : run isxdigit 0 r = ([], r)) by (destruct r; reflexivity).
  cbn [fold_left]. rewrite (d_val _ _ D0), (d_val _ _ D1), (d_val _ _ D2), (d_val _ _ D3), (d_val _ _ D4), (d_val _ _ D5), (d_val _ _ D6), (d_val _ _ D7).
  f_equal. f_equal. unfold u32. change (2 ^ 32) with 4294967296 in *.
  change (2 ^ 28) with 268435456. change (2 ^ 24) with 16777216. change (2 ^ 20) with 1048576. change (2 ^ 16) with 65536.
  change (2 ^ 12) with 4096. change (2 ^ 8) with 256. change (2 ^ 4) with 16. change (2 ^ 0) with 1.
  Z.div_mod_to_equations. lia.
Qed.

(* sixteen bytes *)
Lemma sixteen : forall u : bytes, length u = 16%nat -> all_bytes u ->
  exists b0 b1 b2 b3 b4 b5 b6 b7 b8 b9 b10 b11 b12 b13 b14 b15,
  u = [b0; b1; b2; b3; b4; b5; b6; b7; b8; b9; b10; b11; b12; b13; b14; b15].
Proof.
  intros u H _. do 16 (destruct u as [|? u]; [discriminate|]). destruct u; [|discriminate]. repeat eexists.
Qed.
Lemma read_byte : forall b t r, is_byte b -> read_hexs t = Some r ->
  read_hexs (nibble_to_ascii (Z.shiftr b 4) :: nibble_to_ascii b :: t) = Some (b :: r).
Proof.
  intros b t r HB H. pose proof (byte_rt b HB) as E. cbn [byte_to_ascii] in E. cbn [read_hexs]. rewrite E, H. reflexivity.
Qed.
Lemma uuid_len : forall u, length u = 16%nat -> all_bytes u -> length (uuid_unparse u) = 36%nat.
Proof.
  intros u H HA. destruct (sixteen u H HA) as (b0 & b1 & b2 & b3 & b4 & b5 & b6 & b7 & b8 & b9 & b10 & b11 & b12 & b13 & b14 & b15 & ->). reflexivity.
Qed.
Lemma uuid_rt : forall u, length u = 16%nat -> all_bytes u -> uuid_parse (uuid_unparse u) = Some u.
Proof.
  intros u H HA. unfold uuid_parse. rewrite (uuid_len u H HA).
  destruct (sixteen u H HA) as (b0 & b1 & b2 & b3 & b4 & b5 & b6 & b7 & b8 & b9 & b10 & b11 & b12 & b13 & b14 & b15 & ->).
  change (Nat.eqb 36 36) with true.
  unfold uuid_unparse, hexs, sub, byte_to_ascii. cbn [firstn skipn flat_map app forallb nth length].
  change (45 =? 45) with true. cbn [andb].
  repeat match goal with X : all_bytes (_ :: _) |- _ => inversion X; subst; clear X | X : Forall is_byte (_ :: _) |- _ => inversion X; subst; clear X end.
  repeat (apply read_byte; [assumption|]). reflexivity.
Qed.

Lemma byte_plain : forall b, Forall plain (byte_to_ascii b).
Proof. intros b. unfold byte_to_ascii. repeat (apply Forall_cons; [apply (d_plain _ _ (nib_dig _))|]); apply Forall_nil. Qed.
Lemma hexs_plain : forall u, Forall plain (hexs u).
Proof. induction u as [|b u IH]; [constructor|]. unfold hexs. cbn [flat_map]. apply Forall_app. split; [apply byte_plain|exact IH]. Qed.
Lemma uuid_plain : forall u, Forall plain (uuid_unparse u).
Proof.
  intros u. unfold uuid_unparse. repeat (apply Forall_app; split); try apply hexs_plain; constructor; try constructor; unfold plain; lia.
Qed.
Lemma hex8_plain : forall v, Forall plain (hex8 v).
Proof. intros v. unfold hex8. cbn [map]. repeat (apply Forall_cons; [apply (d_plain _ _ (nib_dig _))|]); apply Forall_nil. Qed.
Lemma meta_plain : forall r, Forall plain (meta_to_str r).
Proof.
  intros r. unfold meta_to_str. apply Forall_app. split; [repeat (apply Forall_cons; [apply (d_plain _ _ (nib_dig _))|]); apply Forall_nil|].
  apply Forall_app. split; apply byte_plain.
Qed.
Lemma plain_sp : forall c, plain c -> isspace c = false.
Proof. unfold plain, isspace. intros. lia. Qed.

Lemma run_all : forall p t r, Forall (fun c => p c = true) t -> run p (length t) (t ++ r) = (t, r).
Proof.
  induction t as [|c t IH]; intros r H; [destruct r; reflexivity|]. inversion H; subst. cbn [length app run]. rewrite H2, IH; auto.
Qed.
Lemma scan_s_all : forall n t r, length t = S n -> Forall plain t -> scan_s (S n) (t ++ r) = Some (t, r).
Proof.
  intros n t r HL HP. unfold scan_s. rewrite <- HL. destruct t as [|c t]; [discriminate|].
  cbn [app skip_ws]. rewrite plain_sp by (inversion HP; auto).
  change (c :: t ++ r) with ((c :: t) ++ r). rewrite run_all; [reflexivity|].
  eapply Forall_impl; [|exact HP]. intros d HD. cbv beta. rewrite plain_sp; auto.
Qed.

Lemma repr_text : forall r, length (r_lvid r) = 16%nat -> all_bytes (r_lvid r) ->
  repr_to_str r = uuid_unparse (r_lvid r) ++ [58] ++ meta_to_str r ++ [45] ++ hex8 (u32 (r_lsize r)) ++ [45] ++
              hex8 (u32 (r_vindex r)) ++ [45] ++ hex8 (u32 (r_pos r)) ++ [45] ++ hex8 (u32 (r_len r)) /\
  length (repr_to_str r) = 79%nat.
Proof.
  intros r H HA. unfold repr_to_str.
  match goal with |- firstn _ ?t = _ /\ _ => assert (E : length t = 79%nat) end.
  { rewrite !app_length, uuid_len by auto. reflexivity. }
  rewrite firstn_all2 by lia. split; [reflexivity|exact E].
Qed.

Lemma u32_range : forall x, 0 <= u32 x < 2 ^ 32.
Proof. intros x. unfold u32. apply Z.mod_pos_bound. lia. Qed.
Lemma u32_id : forall x, 0 <= x < 2 ^ 32 -> u32 x = x.
Proof. intros x H. unfold u32. apply Z.mod_small. auto. Qed.
Lemma u8_id : forall x, 0 <= x < 256 -> u8 x = x.
Proof. intros x H. unfold u8. apply Z.mod_small. auto. Qed.
Lemma s32_u32 : forall x, - 2 ^ 31 <= x < 2 ^ 31 -> s32 (u32 x) = x.
Proof.
  intros x H. unfold s32. cbv zeta. rewrite (u32_id (u32 x)) by apply u32_range. unfold u32.
  change (2 ^ 31) with 2147483648 in H. change (2 ^ 32) with 4294967296.
  destruct (Z.ltb_spec (x mod 4294967296) 2147483648); Z.div_mod_to_equations; lia.
Qed.
Lemma s32_id : forall x, - 2 ^ 31 <= x < 2 ^ 31 -> s32 x = x.
Proof. intros x H. rewrite <- (s32_u32 x H) at 2. unfold s32. rewrite (u32_id (u32 x)) by apply u32_range. reflexivity. Qed.

Lemma meta_rt : forall r, r_version r = 1 -> 0 <= r_height r < 16 -> is_byte (r_vspace r) -> is_byte (r_ltype r) ->
  length (meta_to_str r) = 6%nat /\ meta_version (meta_to_str r) = 1 /\ meta_height (meta_to_str r) = r_height r /\
  meta_byte 2 (meta_to_str r) = r_vspace r /\ meta_byte 4 (meta_to_str r) = r_ltype r.
Proof.
  intros r HV HH HS HT. pose proof (byte_rt _ HS) as E1. pose proof (byte_rt _ HT) as E2.
  unfold meta_to_str, meta_version, meta_height, meta_byte, byte_to_ascii in *. cbn [app nth length]. rewrite E1, E2.
  rewrite (d_val _ _ (nib_dig _)), (d_val _ _ (nib_dig _)), HV. rewrite (Z.mod_small (r_height r)) by lia.
  split; [reflexivity|]. split; [reflexivity|]. split; [|auto]. apply u8_id. lia.
Qed.

(* what was printed is read back, whatever comes after it *)
Lemma text_rt : forall a rest, fits a -> repr_from_str (laddr_to_ascii a ++ rest) = Some (laddr_to_repr a).
Proof.
  intros a rest [[F1 F1'] F2 F3 F4 F5 F6 F7 F8]. unfold laddr_to_ascii. set (r := laddr_to_repr a).
  assert (R1 : r_lvid r = ls_lvid (la_lsid a)) by reflexivity.
  destruct (repr_text r) as [E _]; [rewrite R1; auto|rewrite R1; auto|]. rewrite E. clear E.
  assert (RL : r_lsize r = ls_lsize (la_lsid a)) by (apply u32_id; auto).
  assert (RP : r_pos r = la_pos a) by (apply s32_id; auto).
  assert (RN : r_len r = la_len a) by (apply u32_id; auto).
  assert (RV : r_vindex r = ls_vindex (la_lsid a)) by reflexivity.
  assert (RS : r_vspace r = ls_vspace (la_lsid a)) by (apply u8_id; auto).
  assert (RH : r_height r = ls_height (la_lsid a)) by (apply u8_id; lia).
  assert (RT : r_ltype r = ls_ltype (la_lsid a)) by (apply u8_id; auto).
  assert (RX : r_version r = 1) by reflexivity.
  destruct (meta_rt r) as (M0 & M1 & M2 & M3 & M4); [auto|lia|unfold is_byte; lia|unfold is_byte; lia|].
  unfold repr_from_str. rewrite <- !app_assoc.
  rewrite (scan_s_all 35) by (try apply uuid_plain; apply uuid_len; rewrite R1; auto). cbn [bind app scan_c].
  change (58 =? 58) with true. cbn [bind].
  rewrite (scan_s_all 5) by (try apply meta_plain; exact M0). cbn [bind scan_c]. change (45 =? 45) with true. cbn [bind].
  rewrite hex8_scan by apply u32_range. cbn [bind scan_c]. change (45 =? 45) with true. cbn [bind].
  rewrite hex8_scan by apply u32_range. cbn [bind scan_c]. change (45 =? 45) with true. cbn [bind].
  rewrite hex8_scan by apply u32_range. cbn [bind scan_c]. change (45 =? 45) with true. cbn [bind].
  rewrite hex8_scan by apply u32_range. cbn [bind].
  rewrite uuid_rt by (rewrite R1; auto). cbn [bind]. rewrite M1, M2, M3, M4.
  rewrite s32_u32 by lia. rewrite !u32_id by lia. rewrite <- RX. destruct r. reflexivity.
Qed.

Lemma repr_inj : forall a b, fits a -> fits b -> laddr_to_repr a = laddr_to_repr b -> a = b.
Proof.
  intros a b [_ A2 A3 A4 A5 A6 A7 A8] [_ B2 B3 B4 B5 B6 B7 B8] H.
  destruct a as [[v1 z1 i1 s1 h1 t1] p1 l1], b as [[v2 z2 i2 s2 h2 t2] p2 l2].
  cbn [la_lsid la_pos la_len ls_lvid ls_lsize ls_vindex ls_vspace ls_height ls_ltype] in *.
  unfold laddr_to_repr in H. cbv zeta in H. cbn [la_lsid la_pos la_len ls_lvid ls_lsize ls_vindex ls_vspace ls_height ls_ltype] in H.
  rewrite !s32_id, !u32_id, !u8_id in H by lia. congruence.
Qed.

Lemma from_to_repr : forall a, fits a -> laddr_from_repr (laddr_to_repr a) = if laddr_isvalid a then Some a else None.
Proof.
  intros a [_ A2 A3 A4 A5 A6 A7 A8]. destruct a as [[v z i s h t] p l].
  cbn [la_lsid la_pos la_len ls_lvid ls_lsize ls_vindex ls_vspace ls_height ls_ltype] in *.
  unfold laddr_from_repr, laddr_to_repr. cbv zeta. cbn [la_lsid la_pos la_len ls_lvid ls_lsize ls_vindex ls_vspace ls_height ls_ltype r_version r_lvid r_lsize r_vindex r_vspace r_height r_ltype r_pos r_len].
  change (negb (1 =? 1)) with false. cbv iota. rewrite s32_id, !u32_id, !u8_id by lia.
  destruct (laddr_isvalid _); reflexivity.
Qed.

Lemma read_hexs_len : forall n t u, (length t <= n)%nat -> read_hexs t = Some u -> length t = (2 * length u)%nat /\ all_bytes u.
Proof.
  induction n as [|n IH]; intros t u HL H.
  - destruct t; [|cbn [length] in HL; lia]. injection H as <-. split; [reflexivity|constructor].
  - destruct t as [|c [|d t]]; cbn [read_hexs] in H; [injection H as <-; split; [reflexivity|constructor]|discriminate|].
    destruct (ascii_to_byte c d) as [b|] eqn:E; [|discriminate]. destruct (read_hexs t) as [r|] eqn:ER; [|discriminate]. injection H as <-.
    cbn [length] in *. destruct (IH t r) as [A B]; [lia|auto|]. split; [lia|]. constructor; [|auto].
    unfold ascii_to_byte in E. cbv zeta in E. destruct (_ =? _); [discriminate|]. destruct (_ =? _); [discriminate|]. injection E as <-.
    unfold is_byte, u8. apply Z.mod_pos_bound. lia.
Qed.
Lemma uuid_parse_len : forall t u, uuid_parse t = Some u -> length u = 16%nat /\ all_bytes u.
Proof.
  intros t u H. unfold uuid_parse in H. destruct (Nat.eqb_spec (length t) 36) as [HL|]; [|discriminate]. cbn [andb] in H.
  destruct (forallb _ _); [|discriminate]. destruct (read_hexs_len _ _ _ (le_n _) H) as [A B]. split; [|auto].
  unfold sub in A. rewrite !app_length, !firstn_length, !skipn_length, HL in A.
  cbn in A. lia.
Qed.
Lemma scan_x_range : forall w s v r, scan_x w s = Some (v, r) -> 0 <= v < 2 ^ 32.
Proof.
  intros w s v r H. unfold scan_x in H. cbv zeta in H.
  destruct (if _ || _ then _ else _) as [s2 w2]. destruct (if _ && _ then _ else _) as [s3 w3].
  destruct (run isxdigit w3 s3) as [[|c t] q]; [discriminate|]. injection H as <- _. apply u32_range.
Qed.
Lemma s32_range : forall x, - 2 ^ 31 <= s32 x < 2 ^ 31.
Proof.
  intros x. unfold s32. cbv zeta. pose proof (u32_range x) as H. change (2 ^ 32) with 4294967296 in H.
  change (2 ^ 31) with 2147483648. destruct (Z.ltb_spec (u32 x) 2147483648); lia.
Qed.
Lemma nibble_range : forall c, ascii_to_nibble c = -1 \/ 0 <= ascii_to_nibble c < 16.
Proof.
  intros c. unfold ascii_to_nibble. cbv zeta. destruct ((48 <=? tolower c) && (tolower c <=? 57)) eqn:E1; [right; lia|].
  destruct ((97 <=? tolower c) && (tolower c <=? 102)) eqn:E2; [right; lia|left; reflexivity].
Qed.
Lemma meta_byte_range : forall i m, 0 <= meta_byte i m < 256.
Proof.
  intros i m. unfold meta_byte. destruct (ascii_to_byte _ _) as [b|] eqn:E; [|lia].
  unfold ascii_to_byte in E. cbv zeta in E. destruct (_ =? _); [discriminate|]. destruct (_ =? _); [discriminate|]. injection E as <-.
  unfold u8. apply Z.mod_pos_bound. lia.
Qed.
Lemma meta_height_range : forall m, meta_height m = 255 \/ 0 <= meta_height m < 16.
Proof.
  intros m. unfold meta_height. destruct (nibble_range (nth 1 m 0)) as [E|E]; [rewrite E; left; reflexivity|].
  right. rewrite u8_id; lia.
Qed.
Lemma bind_some : forall (A B : Type) (o : option A) (f : A -> option B) y, bind o f = Some y -> exists x, o = Some x /\ f x = Some y.
Proof. intros A B [x|] f y H; [exists x; auto|discriminate]. Qed.
Lemma repr_ranges : forall s r, repr_from_str s = Some r ->
  (length (r_lvid r) = 16%nat /\ all_bytes (r_lvid r)) /\ 0 <= r_lsize r < 2 ^ 32 /\ 0 <= r_vindex r < 2 ^ 32 /\
  0 <= r_vspace r < 256 /\ (r_height r = 255 \/ 0 <= r_height r < 16) /\ 0 <= r_ltype r < 256 /\
  - 2 ^ 31 <= r_pos r < 2 ^ 31 /\ 0 <= r_len r < 2 ^ 32.
Proof.
  intros s r H. unfold repr_from_str in H.
  apply bind_some in H. destruct H as ([lv s1] & _ & H). apply bind_some in H. destruct H as (s2 & _ & H).
  apply bind_some in H. destruct H as ([m s3] & _ & H). apply bind_some in H. destruct H as (s4 & _ & H).
  apply bind_some in H. destruct H as ([z s5] & H1 & H). apply bind_some in H. destruct H as (s6 & _ & H).
  apply bind_some in H. destruct H as ([i s7] & H2 & H). apply bind_some in H. destruct H as (s8 & _ & H).
  apply bind_some in H. destruct H as ([p s9] & _ & H). apply bind_some in H. destruct H as (s10 & _ & H).
  apply bind_some in H. destruct H as ([l s11] & H4 & H). apply bind_some in H. destruct H as (u & HU & H).
  assert (E : r = mkRepr u z (s32 p) l i (meta_byte 2 m) (meta_height m) (meta_byte 4 m) (meta_version m)) by congruence. subst r.
  cbn [r_lvid r_lsize r_vindex r_vspace r_height r_ltype r_pos r_len].
  split; [apply (uuid_parse_len _ _ HU)|]. split; [apply (scan_x_range _ _ _ _ H1)|]. split; [apply (scan_x_range _ _ _ _ H2)|].
  split; [apply meta_byte_range|]. split; [apply meta_height_range|]. split; [apply meta_byte_range|]. split; [apply s32_range|].
  apply (scan_x_range _ _ _ _ H4).
Qed.
