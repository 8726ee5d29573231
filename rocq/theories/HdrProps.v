(* C35: a sealed object verifies; damage that shows in the checksum, type, size or magic is reported. *)
From Verif Require Import Base AddrModel HdrModel.

Lemma zsub_zput_apart : forall A (l d : list A) off n o, 0 <= off -> 0 <= n -> off + n <= zlen l -> 0 <= o -> o + zlen d <= zlen l ->
  off + n <= o \/ o + zlen d <= off -> zsub off n (zput l o d) = zsub off n l.
Proof.
  intros A l d off n o H1 H2 H3 H4 H5 H6. destruct l as [|x l']; [destruct (Z.eq_dec n 0) as [->|]; [reflexivity|rewrite zlen_nil in *; lia]|].
  set (l := x :: l') in *. pose proof (zlen_nonneg _ d). apply (znth_ext _ x).
  - rewrite !zlen_zsub; try rewrite zlen_zput; lia.
  - intros i Hi. rewrite zlen_zsub in Hi by (try rewrite zlen_zput; lia). rewrite !znth_zsub by lia. rewrite znth_zput by lia.
    destruct ((o <=? off + i) && (off + i <? o + zlen d)) eqn:E; [lia|reflexivity].
Qed.
Lemma zlen_le_enc : forall n x, zlen (le_enc n x) = Z.of_nat n.
Proof. intros. unfold zlen. rewrite le_enc_length. reflexivity. Qed.

(* the metadata types *)
Definition meta (t : Z) : Prop := LT_BOOTREC <= t <= LT_FTNODE.
Lemma meta_size : forall t, meta t -> 16 < ltype_size t <= 65536 /\ ltype_isdata t = false.
Proof.
  intros t [H1 H2]. unfold LT_BOOTREC, LT_FTNODE in *.
  assert (C : t = 1 \/ t = 2 \/ t = 3 \/ t = 4 \/ t = 5 \/ t = 6 \/ t = 7 \/ t = 8 \/ t = 9) by lia.
  destruct C as [->|[->|[->|[->|[->|[->|[->|[->| ->]]]]]]]]; vm_compute; intuition congruence.
Qed.

Section H.
Variable hash : bytes -> Z.
Notation seal := (hdr_seal hash).
Notation verify := (verify_view hash).

Definition fields (v : bytes) := (h_magic v, h_type v, h_size v).
Lemma fields_inv : forall v m t n, fields v = (m, t, n) -> h_magic v = m /\ h_type v = t /\ h_size v = n.
Proof. intros v m t n H. unfold fields in H. repeat split; congruence. Qed.
Lemma setup_fields : forall v t n, 16 <= zlen v -> 0 <= t < 256 -> 0 <= n < 2 ^ 32 ->
  fields (hdr_setup v t n) = (META_MAGIC, t, n) /\ h_flags (hdr_setup v t n) = 0 /\ zlen (hdr_setup v t n) = zlen v.
Proof.
  intros v t n Hv Ht Hn. unfold hdr_setup. set (h := le_enc 4 META_MAGIC ++ le_enc 1 t ++ [0] ++ le_enc 2 0 ++ le_enc 4 n ++ le_enc 4 0).
  assert (L : zlen h = 16) by reflexivity.
  assert (R : forall o k, 0 <= o -> 0 <= k -> o + k <= 16 -> zsub o k (zput v 0 h) = zsub o k h).
  { intros o k H1 H2 H3. apply (znth_ext _ 0).
    - rewrite !zlen_zsub; try rewrite zlen_zput; lia.
    - intros i Hi. rewrite zlen_zsub in Hi by (try rewrite zlen_zput; lia). rewrite !znth_zsub by lia. rewrite znth_zput by lia.
      destruct ((0 <=? o + i) && (o + i <? 0 + zlen h)) eqn:E; [f_equal; lia|lia]. }
  unfold fields, h_magic, h_type, h_size, h_flags. rewrite !R by lia. split; [|split; [reflexivity|rewrite zlen_zput; lia]].
  replace (zsub 0 4 h) with (le_enc 4 META_MAGIC) by reflexivity. replace (zsub 4 1 h) with (le_enc 1 t) by reflexivity.
  replace (zsub 8 4 h) with (le_enc 4 n) by reflexivity. rewrite (le_dec_enc 4 META_MAGIC) by (vm_compute; split; congruence). rewrite (le_dec_enc 1 t) by (change (256 ^ Z.of_nat 1) with 256; lia). rewrite (le_dec_enc 4 n) by (change (256 ^ Z.of_nat 4) with (2 ^ 32); lia). reflexivity.
Qed.

Lemma seal_facts : forall v w, 16 <= zlen v -> h_size v <= zlen v -> seal v = Some w -> zlen w = zlen v /\ fields w = fields v /\ payload w = payload v /\
  h_csum w = calc_csum hash v /\ h_flags w = u16 (Z.lor HDRF_CSUM (h_flags v)) /\ size_sane v = true /\ calc_csum hash w = calc_csum hash v.
Proof.
  intros v w HL HZ. unfold hdr_seal. destruct (size_sane v) eqn:S; [|discriminate]. intros E.
  set (c := calc_csum hash v) in *. set (v1 := zput v 12 (le_enc 4 c)) in *. set (f := u16 (Z.lor HDRF_CSUM (h_flags v1))) in *.
  assert (Ew : w = zput v1 6 (le_enc 2 f)) by congruence. clear E.
  assert (L1 : zlen v1 = zlen v) by (unfold v1; apply zlen_zput; [lia|rewrite zlen_le_enc; lia]).
  assert (L2 : zlen w = zlen v) by (rewrite Ew, zlen_zput; [exact L1|lia|rewrite zlen_le_enc; lia]).
  assert (R : forall o k, 0 <= o -> 0 <= k -> o + k <= zlen v -> (o + k <= 6 \/ 8 <= o /\ (o + k <= 12 \/ 16 <= o)) -> zsub o k w = zsub o k v).
  { intros o k H1 H2 H3 H4. rewrite Ew. rewrite zsub_zput_apart; rewrite ?zlen_le_enc, ?L1; try lia. unfold v1. apply zsub_zput_apart; rewrite ?zlen_le_enc; lia. }
  assert (F1 : h_flags v1 = h_flags v) by (unfold h_flags, v1; rewrite zsub_zput_apart; rewrite ?zlen_le_enc; try lia; reflexivity).
  assert (FS : fields w = fields v) by (unfold fields, h_magic, h_type, h_size; rewrite !R by lia; reflexivity).
  split; [exact L2|]. split; [exact FS|].
  assert (P : payload w = payload v).
  { unfold payload, HDR_SIZE. rewrite <- (ztake_all _ (zlen v - 16) (zdrop 16 w)), <- (ztake_all _ (zlen v - 16) (zdrop 16 v)) by (rewrite zlen_zdrop; lia).
    apply (R 16 (zlen v - 16)); lia. }
  split; [exact P|].
  assert (C : 0 <= c < 256 ^ Z.of_nat 4) by (unfold c, calc_csum, u32; change (256 ^ Z.of_nat 4) with (2 ^ 32); apply Z.mod_pos_bound; lia).
  assert (D : 0 <= f < 256 ^ Z.of_nat 2) by (unfold f, u16; change (256 ^ Z.of_nat 2) with (2 ^ 16); apply Z.mod_pos_bound; lia).
  split; [|split; [|split; [reflexivity|]]].
  - unfold h_csum. rewrite Ew. rewrite zsub_zput_apart by (rewrite ?zlen_le_enc, ?L1; lia). unfold v1.
    replace 4 with (zlen (le_enc 4 c)) at 1 by reflexivity. rewrite zsub_zput_same by (rewrite ?zlen_le_enc; lia). apply le_dec_enc. exact C.
  - unfold h_flags at 1. rewrite Ew. replace 2 with (zlen (le_enc 2 f)) at 1 by reflexivity. rewrite zsub_zput_same by (rewrite ?zlen_le_enc, ?L1; lia).
    rewrite le_dec_enc by exact D. unfold f. rewrite F1. reflexivity.
  - unfold c, calc_csum. unfold fields in FS. assert (E3 : h_size w = h_size v) by congruence. rewrite E3. f_equal. f_equal. unfold payload in P. unfold zsub. rewrite P. reflexivity.
Qed.

Definition new_object (t : Z) (p : bytes) : bytes := set_payload (view_init t) p.
Lemma new_object_facts : forall t p, meta t -> zlen p = ltype_size t - 16 ->
  let v := new_object t p in fields v = (META_MAGIC, t, ltype_size t) /\ h_flags v = 0 /\ zlen v = ltype_size t /\ payload v = p /\ size_sane v = true.
Proof.
  intros t p M Hp v. destruct (meta_size t M) as [Z0 _]. unfold meta, LT_BOOTREC, LT_FTNODE in M.
  assert (L0 : zlen (zrepeat 0 (ltype_size t)) = ltype_size t) by (apply zlen_zrepeat; lia).
  destruct (setup_fields (zrepeat 0 (ltype_size t)) t (ltype_size t)) as [F [G L]]; [lia..|]. fold (view_init t) in F, G, L. rewrite L0 in L.
  assert (R : forall o k, 0 <= o -> 0 <= k -> o + k <= 16 -> zsub o k v = zsub o k (view_init t)).
  { intros o k H1 H2 H3. unfold v, new_object, set_payload, HDR_SIZE. apply zsub_zput_apart; lia. }
  assert (FV : fields v = (META_MAGIC, t, ltype_size t)) by (rewrite <- F; unfold fields, h_magic, h_type, h_size; rewrite !R by lia; reflexivity).
  split; [exact FV|]. split; [unfold h_flags in *; rewrite R by lia; exact G|].
  split; [unfold v, new_object, set_payload, HDR_SIZE; rewrite zlen_zput; lia|].
  split; [|unfold size_sane, HDR_SIZE, LBK_SIZE; destruct (fields_inv _ _ _ _ FV) as [_ [_ ->]]; lia].
  unfold payload, v, new_object, set_payload, zput, HDR_SIZE. rewrite zdrop_app_r by (rewrite zlen_ztake; lia). rewrite zlen_ztake by lia.
  rewrite zdrop_0 by lia. rewrite zdrop_all by lia. apply app_nil_r.
Qed.

Lemma lor1_odd : forall x, Z.land (Z.lor 1 x) 1 = 1.
Proof. intros. rewrite (Z.land_ones _ 1) by lia. change (2 ^ 1) with 2. rewrite Zmod_odd. rewrite <- Z.bit0_odd, Z.lor_spec. reflexivity. Qed.
Lemma flags_land : forall x m, 0 <= m < 2 ^ 16 -> Z.land (u16 x) m = Z.land x m.
Proof.
  intros x m Hm. unfold u16. rewrite <- Z.land_ones by lia. rewrite <- Z.land_assoc. f_equal. rewrite Z.land_comm. rewrite Z.land_ones by lia. apply Z.mod_small. lia.
Qed.

(* what was sealed verifies, whatever its content: the verdict is the type's own *)
Theorem sealed_verifies : forall t p, meta t -> zlen p = ltype_size t - 16 ->
  exists w, seal (new_object t p) = Some w /\ payload w = p /\ zlen w = ltype_size t /\ verify t w true = VOk /\ verify t w false = VCorrupted /\
    (* sealing again, after any further change of content, also does *)
    forall p', zlen p' = ltype_size t - 16 -> exists w', seal (set_payload w p') = Some w' /\ payload w' = p' /\ verify t w' true = VOk.
Proof.
  intros t p M Hp. destruct (new_object_facts t p M Hp) as [F [G [L [P S]]]]. destruct (meta_size t M) as [ZS ND]. set (v := new_object t p) in *.
  assert (HS : h_size v = ltype_size t) by (unfold fields in F; congruence).
  assert (ON : forall u w, fields u = (META_MAGIC, t, ltype_size t) -> zlen u = ltype_size t -> size_sane u = true -> seal u = Some w ->
     payload w = payload u /\ zlen w = ltype_size t /\ fields w = fields u /\ verify t w true = VOk /\ verify t w false = VCorrupted).
  { intros u w FU LU SU E. assert (HU : h_size u = ltype_size t) by (unfold fields in FU; congruence).
    destruct (seal_facts u w) as [A1 [A2 [A3 [A4 [A5 [_ A7]]]]]]; [lia|lia|exact E|]. split; [exact A3|]. split; [lia|]. split; [exact A2|].
    assert (HV : hdr_verify hash w t (ltype_size t) (Z.lor HDRF_CSUM HDRF_LTYPE) = VOk).
    { rewrite FU in A2. unfold fields in A2. unfold hdr_verify. assert (E1 : h_magic w = META_MAGIC) by congruence. assert (E2 : h_type w = t) by congruence.
      assert (E3 : h_size w = ltype_size t) by congruence. rewrite E1, E2, E3, !Z.eqb_refl. cbn [negb].
      assert (C1 : hdr_has_flags w HDRF_CSUM = true).
      { unfold hdr_has_flags, HDRF_CSUM. rewrite A5, flags_land by lia. unfold HDRF_CSUM. rewrite lor1_odd. reflexivity. }
      assert (C2 : hdr_has_flags w (Z.lor HDRF_CSUM HDRF_LTYPE) = true).
      { unfold hdr_has_flags in *. rewrite A5 in *. rewrite flags_land in * by (vm_compute; split; congruence). change (Z.lor HDRF_CSUM HDRF_LTYPE) with 5.
        apply Z.ltb_lt. assert (NN : 0 <= Z.land (Z.lor HDRF_CSUM (h_flags u)) 5) by (apply Z.land_nonneg; right; lia).
        assert (N0 : Z.land (Z.lor HDRF_CSUM (h_flags u)) 5 <> 0); [|lia]. intros X. apply (f_equal (fun z => Z.testbit z 0)) in X.
        rewrite Z.land_spec, Z.lor_spec in X. discriminate. }
      rewrite C2, C1. cbn [negb]. assert (SW : size_sane w = true) by (unfold size_sane, HDR_SIZE, LBK_SIZE; lia). rewrite SW. cbn [negb].
      rewrite A7, A4, Z.eqb_refl. reflexivity. }
    unfold verify_view. rewrite ND, HV. split; reflexivity. }
  assert (E : exists w, seal v = Some w) by (unfold hdr_seal; rewrite S; eexists; reflexivity). destruct E as [w E].
  destruct (ON v w F L S E) as [B1 [B2 [B3 [B4 B5]]]]. exists w. rewrite P in B1. repeat (split; [assumption|]).
  intros p' Hp'. set (u := set_payload w p').
  assert (R : forall o k, 0 <= o -> 0 <= k -> o + k <= 16 -> zsub o k u = zsub o k w) by (intros o k H1 H2 H3; unfold u, set_payload, HDR_SIZE; apply zsub_zput_apart; lia).
  assert (FU : fields u = (META_MAGIC, t, ltype_size t)) by (rewrite <- F, <- B3; unfold fields, h_magic, h_type, h_size; rewrite !R by lia; reflexivity).
  assert (LU : zlen u = ltype_size t) by (unfold u, set_payload, HDR_SIZE; rewrite zlen_zput; lia).
  assert (SU : size_sane u = true) by (unfold size_sane, HDR_SIZE, LBK_SIZE; destruct (fields_inv _ _ _ _ FU) as [_ [_ ->]]; lia).
  assert (E' : exists w', seal u = Some w') by (unfold hdr_seal; rewrite SU; eexists; reflexivity). destruct E' as [w' E'].
  exists w'. split; [exact E'|]. destruct (ON u w' FU LU SU E') as [D1 [_ [_ [D4 _]]]]. split; [|exact D4]. rewrite D1.
  unfold payload, u, set_payload, zput, HDR_SIZE. rewrite zdrop_app_r by (rewrite zlen_ztake; lia). rewrite zlen_ztake by lia.
  rewrite zdrop_0 by lia. rewrite zdrop_all by lia. apply app_nil_r.
Qed.

(* whatever bytes are read back: if they are accepted, magic, type and size are right, and with
   the checksum flag in place the checksum matches the content *)
Theorem accepted_is_intact : forall t w ok, meta t -> zlen w = ltype_size t -> verify t w ok = VOk ->
  ok = true /\ h_magic w = META_MAGIC /\ h_type w = t /\ h_size w = ltype_size t /\ h_flags w <> 0 /\
  (Z.testbit (h_flags w) 0 = true -> u32 (hash (payload w)) = h_csum w).
Proof.
  intros t w ok M L. destruct (meta_size t M) as [ZS ND]. unfold verify_view. rewrite ND. unfold hdr_verify.
  destruct (Z.eqb_spec (h_magic w) META_MAGIC) as [E1|]; cbn [negb]; [|discriminate].
  destruct (Z.eqb_spec (h_type w) t) as [E2|]; cbn [negb]; [|discriminate].
  destruct (Z.eqb_spec (h_size w) (ltype_size t)) as [E3|]; cbn [negb]; [|discriminate].
  destruct (hdr_has_flags w (Z.lor HDRF_CSUM HDRF_LTYPE)) eqn:E4; cbn [negb]; [|discriminate].
  assert (N : h_flags w <> 0) by (intros X; unfold hdr_has_flags in E4; rewrite X in E4; discriminate).
  assert (CB : Z.testbit (h_flags w) 0 = true -> hdr_has_flags w HDRF_CSUM = true).
  { intros T. unfold hdr_has_flags, HDRF_CSUM. apply Z.ltb_lt. assert (NN : 0 <= Z.land (h_flags w) 1) by (apply Z.land_nonneg; right; lia).
    assert (N0 : Z.land (h_flags w) 1 <> 0); [|lia]. intros X. apply (f_equal (fun z => Z.testbit z 0)) in X. rewrite Z.land_spec, T in X. discriminate. }
  assert (CS : calc_csum hash w = u32 (hash (payload w))).
  { unfold calc_csum, payload, zsub. rewrite ztake_all; [reflexivity|]. unfold HDR_SIZE. rewrite zlen_zdrop by lia. lia. }
  destruct (hdr_has_flags w HDRF_CSUM) eqn:E5; cbn [negb].
  - destruct (size_sane w); cbn [negb]; [|discriminate]. destruct (Z.eqb_spec (calc_csum hash w) (h_csum w)) as [E6|]; [|discriminate].
    destruct ok; [|discriminate]. intros _. repeat split; auto. intros _. rewrite <- CS. exact E6.
  - destruct ok; [|discriminate]. intros _. repeat split; auto. intros T. specialize (CB T). discriminate.
Qed.
Theorem load_never_aborts : forall t w ok, meta t -> verify t w ok <> VAbort.
Proof.
  intros t w ok M. destruct (meta_size t M) as [ZS ND]. unfold verify_view. rewrite ND. unfold hdr_verify.
  destruct (Z.eqb_spec (h_magic w) META_MAGIC) as [E1|]; cbn [negb]; [|discriminate].
  destruct (Z.eqb_spec (h_type w) t) as [E2|]; cbn [negb]; [|discriminate].
  destruct (Z.eqb_spec (h_size w) (ltype_size t)) as [E3|]; cbn [negb]; [|discriminate].
  assert (SW : size_sane w = true) by (unfold size_sane, HDR_SIZE, LBK_SIZE; lia). rewrite SW. cbn [negb].
  destruct (hdr_has_flags w _), (hdr_has_flags w _), (_ =? _), ok; cbn [negb]; discriminate.
Qed.

(* damage to the payload of what was written that changes the checksum is reported *)
Theorem damage_detected : forall t p w w', meta t -> zlen p = ltype_size t - 16 -> seal (new_object t p) = Some w ->
  zlen w' = zlen w -> ztake 16 w' = ztake 16 w -> u32 (hash (payload w')) <> u32 (hash p) -> verify t w' true = VBadCrc.
Proof.
  intros t p w w' M Hp E LW HW HC. destruct (sealed_verifies t p M Hp) as [w0 [E0 [P0 [L0 [V0 _]]]]]. assert (w0 = w) by congruence. subst w0.
  destruct (new_object_facts t p M Hp) as [F [G [L [P S]]]]. destruct (meta_size t M) as [ZS ND].
  destruct (seal_facts (new_object t p) w) as [A1 [A2 [A3 [A4 [A5 _]]]]]; [lia|destruct (fields_inv _ _ _ _ F) as [_ [_ ->]]; lia|exact E|].
  assert (Q : forall o k, 0 <= o -> 0 <= k -> o + k <= 16 -> zsub o k w' = zsub o k w).
  { intros o k H1 H2 H3. assert (R : forall x : bytes, 16 <= zlen x -> zsub o k x = zsub o k (ztake 16 x)); [|rewrite R, (R w), HW by lia; reflexivity].
    intros x Hx. rewrite <- (ztake_zdrop _ 16 x) at 1. apply zsub_app_l; try lia. rewrite zlen_ztake; lia. }
  assert (FW : fields w' = (META_MAGIC, t, ltype_size t)) by (rewrite <- F, <- A2; unfold fields, h_magic, h_type, h_size; rewrite !Q by lia; reflexivity).
  assert (GW : h_flags w' = h_flags w) by (unfold h_flags; rewrite Q by lia; reflexivity).
  assert (CW : h_csum w' = h_csum w) by (unfold h_csum; rewrite Q by lia; reflexivity).
  unfold verify_view in *. rewrite ND in *. unfold hdr_verify in *. destruct (fields_inv _ _ _ _ FW) as [E1 [E2 E3]].
  assert (SW : size_sane w' = true) by (unfold size_sane, HDR_SIZE, LBK_SIZE; lia).
  assert (C1 : hdr_has_flags w HDRF_CSUM = true).
  { unfold hdr_has_flags, HDRF_CSUM. rewrite A5, flags_land by lia. unfold HDRF_CSUM. rewrite lor1_odd. reflexivity. }
  rewrite E1, E2, E3, !Z.eqb_refl, SW. cbn [negb]. unfold hdr_has_flags in *. rewrite GW, C1. cbn [negb].
  destruct (0 <? Z.land (h_flags w) (Z.lor HDRF_CSUM HDRF_LTYPE)) eqn:E4; cbn [negb] in *;
    [|destruct (h_magic w =? META_MAGIC), (h_type w =? t), (h_size w =? ltype_size t); discriminate].
  destruct (Z.eqb_spec (calc_csum hash w') (h_csum w')) as [X|]; [exfalso|reflexivity]. apply HC.
  assert (CS : forall x, h_size x = zlen x -> 16 <= zlen x -> calc_csum hash x = u32 (hash (payload x))).
  { intros x H1 H2. unfold calc_csum, payload, zsub. rewrite ztake_all; [reflexivity|]. unfold HDR_SIZE. rewrite zlen_zdrop by lia. lia. }
  rewrite CS in X by lia. rewrite X, CW, A4. rewrite CS; [rewrite P; reflexivity|destruct (fields_inv _ _ _ _ F) as [_ [_ ->]]; lia|lia].
Qed.

(* an object of one type is not accepted as one of another *)
Theorem wrong_type_detected : forall t t' p w, meta t -> meta t' -> t <> t' -> zlen p = ltype_size t - 16 -> seal (new_object t p) = Some w ->
  verify t' w true = VCorrupted.
Proof.
  intros t t' p w M M' N Hp E. destruct (new_object_facts t p M Hp) as [F [G [L [P S]]]]. destruct (meta_size t M) as [ZS ND]. destruct (meta_size t' M') as [ZS' ND'].
  destruct (seal_facts (new_object t p) w) as [A1 [A2 _]]; [lia|destruct (fields_inv _ _ _ _ F) as [_ [_ ->]]; lia|exact E|].
  rewrite F in A2. destruct (fields_inv _ _ _ _ A2) as [E1 [E2 E3]]. unfold verify_view. rewrite ND'. unfold hdr_verify. rewrite E1, Z.eqb_refl, E2. cbn [negb].
  destruct (Z.eqb_spec t t'); [contradiction|reflexivity].
Qed.
(* an object that was never sealed is not accepted *)
Theorem unsealed_rejected : forall t p, meta t -> zlen p = ltype_size t - 16 -> verify t (new_object t p) true = VCorrupted.
Proof.
  intros t p M Hp. destruct (new_object_facts t p M Hp) as [F [G [L [P S]]]]. destruct (meta_size t M) as [ZS ND].
  unfold verify_view. rewrite ND. unfold hdr_verify. destruct (fields_inv _ _ _ _ F) as [E1 [E2 E3]]. rewrite E1, E2, E3, !Z.eqb_refl. cbn [negb].
  unfold hdr_has_flags. rewrite G. reflexivity.
Qed.
(* damage to a header field that is checked *)
Theorem header_damage_detected : forall t w, meta t -> h_magic w <> META_MAGIC \/ h_type w <> t \/ h_size w <> ltype_size t \/ h_flags w = 0 -> verify t w true = VCorrupted.
Proof.
  intros t w M H. destruct (meta_size t M) as [ZS ND]. unfold verify_view. rewrite ND. unfold hdr_verify.
  destruct (Z.eqb_spec (h_magic w) META_MAGIC) as [E1|]; cbn [negb]; [|reflexivity].
  destruct (Z.eqb_spec (h_type w) t) as [E2|]; cbn [negb]; [|reflexivity].
  destruct (Z.eqb_spec (h_size w) (ltype_size t)) as [E3|]; cbn [negb]; [|reflexivity].
  destruct H as [H|[H|[H|H]]]; try contradiction. unfold hdr_has_flags. rewrite H. reflexivity.
Qed.
End H.
Print Assumptions sealed_verifies.
Print Assumptions accepted_is_intact.
Print Assumptions load_never_aborts.
Print Assumptions damage_detected.
Print Assumptions wrong_type_detected.
Print Assumptions unsealed_rejected.
Print Assumptions header_damage_detected.

Definition toy (b : bytes) : Z := fold_right (fun x a => x + 3 * a) 0 b.
Definition toy_payload : bytes := zrepeat 7 1008.
Example sealed_ex : meta LT_INODE /\ zlen toy_payload = ltype_size LT_INODE - 16 /\
  match hdr_seal toy (new_object LT_INODE toy_payload) with
  | Some w => verify_view toy LT_INODE w true = VOk /\ h_flags w = 1 /\ h_csum w <> 0 /\ verify_view toy LT_INODE (zput w 100 [8]) true = VBadCrc
  | None => False
  end.
Proof. vm_compute. intuition congruence. Qed.

(* Damage that also turns the checksum flag of the header into the type flag goes unnoticed,
   whatever the payload has become and whatever the checksum function: the test asks for either flag. *)
Theorem any_damage_detected_refuted : forall hash, exists t p w w', meta t /\ zlen p = ltype_size t - 16 /\ hdr_seal hash (new_object t p) = Some w /\
  zlen w' = zlen w /\ h_csum w' = h_csum w /\ payload w' <> payload w /\ h_flags w' <> h_flags w /\ verify_view hash t w' true = VOk.
Proof.
  intros hash. set (p := zrepeat 0 1008). assert (M : meta LT_INODE) by (unfold meta, LT_INODE, LT_BOOTREC, LT_FTNODE; lia).
  assert (Hp : zlen p = ltype_size LT_INODE - 16) by reflexivity.
  destruct (sealed_verifies hash LT_INODE p M Hp) as [w [E [P [L [V _]]]]]. change (ltype_size LT_INODE) with 1024 in *.
  destruct (new_object_facts hash LT_INODE p M Hp) as [F [G [L0 [P0 S]]]]. change (ltype_size LT_INODE) with 1024 in *.
  destruct (seal_facts hash (new_object LT_INODE p) w) as [A1 [A2 [A3 [A4 [A5 _]]]]]; [lia|destruct (fields_inv _ _ _ _ F) as [_ [_ ->]]; lia|exact E|].
  set (w1 := zput w 100 [1]). set (w' := zput w1 6 (le_enc 2 4)).
  assert (L1 : zlen w1 = 1024) by (unfold w1; rewrite zlen_zput; rewrite ?zlen_cons, ?zlen_nil; lia).
  assert (L2 : zlen w' = 1024) by (unfold w'; rewrite zlen_zput; rewrite ?zlen_le_enc; lia).
  assert (R : forall o k, 0 <= o -> 0 <= k -> o + k <= 100 -> (o + k <= 6 \/ 8 <= o) -> zsub o k w' = zsub o k w).
  { intros o k H1 H2 H3 H4. unfold w'. rewrite zsub_zput_apart by (rewrite ?zlen_le_enc; lia). unfold w1. apply zsub_zput_apart; rewrite ?zlen_cons, ?zlen_nil; lia. }
  assert (GW : h_flags w' = 4) by (unfold h_flags, w'; replace 2 with (zlen (le_enc 2 4)) at 1 by reflexivity; rewrite zsub_zput_same by (rewrite ?zlen_le_enc; lia); reflexivity).
  exists LT_INODE, p, w, w'. split; [exact M|]. split; [exact Hp|]. split; [exact E|]. split; [lia|].
  split; [unfold h_csum; rewrite R by lia; reflexivity|]. split.
  { intros X. apply (f_equal (fun l => znth l 84 0)) in X. unfold payload, HDR_SIZE in X.
    assert (Y : forall x : bytes, znth (zdrop 16 x) 84 0 = znth x 100 0) by (intros x; unfold znth, zdrop; rewrite nth_skipn'; reflexivity).
    rewrite !Y in X. unfold w' in X. rewrite znth_zput in X by (rewrite ?zlen_le_enc; lia). rewrite zlen_le_enc in X. cbn [andb] in X.
    change ((6 <=? 100) && (100 <? 6 + Z.of_nat 2)) with false in X. cbv iota in X. unfold w1 in X. rewrite znth_zput in X by (rewrite ?zlen_cons, ?zlen_nil; lia).
    change ((100 <=? 100) && (100 <? 100 + zlen [1])) with true in X. cbv iota in X. change (znth [1] (100 - 100) 0) with 1 in X.
    rewrite <- Y in X. change (zdrop 16 w) with (payload w) in X. rewrite P in X. vm_compute in X. discriminate. }
  split. { rewrite GW, A5, G. vm_compute. discriminate. }
  unfold verify_view. change (ltype_isdata LT_INODE) with false. cbv iota. unfold hdr_verify.
  assert (FW : fields w' = (META_MAGIC, LT_INODE, 1024)) by (rewrite <- F, <- A2; unfold fields, h_magic, h_type, h_size; rewrite !R by lia; reflexivity).
  unfold fields in FW. assert (E1 : h_magic w' = META_MAGIC) by congruence. assert (E2 : h_type w' = LT_INODE) by congruence. assert (E3 : h_size w' = 1024) by congruence.
  rewrite E1, E2, E3. unfold hdr_has_flags. rewrite GW. reflexivity.
Qed.
Print Assumptions any_damage_detected_refuted.
