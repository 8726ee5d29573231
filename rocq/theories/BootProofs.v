(* Proofs about boot records *)
From Verif Require Import Base AddrModel WalkModel PackModel PackSpec PackProofs.
From Verif Require Import BootModel BootSpec AddrProofs.

Lemma xor_self : forall a, xor_bytes a a = repeat 0 (length a).
Proof. induction a; cbn; [auto|]. rewrite Z.lxor_nilpotent, IHa. auto. Qed.

Lemma xor_twice : forall x k, length k = length x -> xor_bytes (xor_bytes x k) k = x.
Proof. intros x k L. rewrite xor_bytes_assoc, xor_self. apply xor_bytes_zero. auto. Qed.

Lemma firstn_xor : forall n a b, firstn n (xor_bytes a b) = xor_bytes (firstn n a) (firstn n b).
Proof. induction n; intros [|x a] [|y b]; cbn [xor_bytes firstn]; auto. rewrite IHn. auto. Qed.

Lemma skipn_xor : forall n a b, length a = length b -> skipn n (xor_bytes a b) = xor_bytes (skipn n a) (skipn n b).
Proof.
  induction n; intros [|x a] [|y b] L; cbn [xor_bytes skipn length] in *; auto; try discriminate.
Qed.

Lemma part_xor : forall i n a b, length a = length b -> part (xor_bytes a b) i n = xor_bytes (part a i n) (part b i n).
Proof. intros. unfold part. rewrite skipn_xor, firstn_xor by auto. auto. Qed.

Lemma part_length : forall b i n, (i + n <= length b)%nat -> length (part b i n) = n.
Proof. intros. unfold part. rewrite firstn_length, skipn_length. lia. Qed.

Lemma skipn_add : forall A (l : list A) i j, skipn j (skipn i l) = skipn (i + j) l.
Proof. induction l; intros [|i] j; cbn [skipn Nat.add]; auto using skipn_nil. Qed.

Lemma sub_sub : forall i n j m b, (j + m <= n)%nat -> sub j m (sub i n b) = sub (i + j) m b.
Proof.
  intros i n j m b H. unfold sub.
  rewrite skipn_firstn_comm, firstn_firstn.
  replace (Nat.min m (n - j)) with m by lia.
  rewrite skipn_add. auto.
Qed.

Lemma s32_signed : forall x, signed 32 x (s32 x).
Proof.
  intros x. unfold signed, s32. change (32 - 1) with 31.
  pose proof (Z.mod_pos_bound x (2 ^ 32)). pose proof (Z.div_mod x (2 ^ 32)).
  change (2 ^ 32) with 4294967296 in *. change (2 ^ 31) with 2147483648 in *.
  destruct (x mod 4294967296 <? 2147483648) eqn:X; (split; [lia|]).
  - apply Z.mod_divide; [lia|]. exists (x / 4294967296). lia.
  - apply Z.mod_divide; [lia|]. exists (x / 4294967296 + 1). lia.
Qed.
Lemma s64_signed : forall x, signed 64 x (s64 x).
Proof.
  intros x. unfold signed, s64. change (64 - 1) with 63.
  pose proof (Z.mod_pos_bound x (2 ^ 64)). pose proof (Z.div_mod x (2 ^ 64)).
  change (2 ^ 64) with 18446744073709551616 in *. change (2 ^ 63) with 9223372036854775808 in *.
  match goal with |- context [if ?c then _ else _] => destruct c eqn:X end; (split; [lia|]).
  - apply Z.mod_divide; [lia|]. exists (x / 18446744073709551616). lia.
  - apply Z.mod_divide; [lia|]. exists (x / 18446744073709551616 + 1). lia.
Qed.

(* ---- lengths ---- *)
Ltac lens := repeat (rewrite ?app_length, ?le_enc_length, ?repeat_length).

Lemma uaddr64b_length : forall u, length (ls_lvid (la_lsid (ua_laddr u))) = 16%nat ->
  length (uaddr64b_htox (repeat 0 8) u) = 64%nat.
Proof. intros u H. unfold uaddr64b_htox. lens. rewrite laddr48b_length by auto. auto. Qed.

Lemma prange64b_length : forall p, length (pr_pvid p) = 16%nat -> length (prange64b_htox p) = 64%nat.
Proof. intros p H. unfold prange64b_htox. lens. rewrite H. auto. Qed.

Lemma body_length : forall r, brec_wf r -> length (boot_body r) = 992%nat.
Proof.
  intros r W. unfold boot_body. lens.
  rewrite uaddr64b_length, prange64b_length by apply W.
  rewrite (bw_uuid r W), (bw_key r W), (bw_iv r W), (bw_riv r W). reflexivity.
Qed.

Lemma plain_length : forall C r, sized C -> brec_wf r -> length (boot_plain C r) = 1024%nat.
Proof. intros C r (_ & H & _) W. unfold boot_plain. rewrite app_length, body_length, H by auto. auto. Qed.

Lemma seal_eq : forall C pw x, length x = 1024%nat -> boot_seal C pw x = xor_bytes x (pad_of C pw).
Proof. intros C pw x L. unfold boot_seal, crypt, pad_of, boot_ivkey. rewrite L. destruct pw; auto. Qed.

Lemma pad_length : forall C pw, sized C -> length (pad_of C pw) = 1024%nat.
Proof. intros C pw (_ & _ & H). unfold pad_of. destruct (length pw =? 0)%nat; apply H. Qed.

Lemma seal_length : forall C pw x, sized C -> length x = 1024%nat -> length (boot_seal C pw x) = 1024%nat.
Proof. intros C pw x S0 L. rewrite seal_eq, xor_bytes_length, L, pad_length by auto. auto. Qed.

Lemma seal_twice : forall C pw x, sized C -> length x = 1024%nat -> boot_seal C pw (boot_seal C pw x) = x.
Proof.
  intros C pw x S0 L. rewrite (seal_eq C pw (boot_seal C pw x)) by (apply seal_length; auto).
  rewrite seal_eq by auto. apply xor_twice. rewrite pad_length; auto.
Qed.

Lemma enc_length : forall C pw r, sized C -> brec_wf r -> length (boot_enc C pw r) = 1024%nat.
Proof. intros. apply seal_length; auto. apply plain_length; auto. Qed.

(* ---- fields ---- *)
Lemma prange_roundtrip : forall p, length (pr_pvid p) = 16%nat -> 0 <= pr_base p < 2 ^ 32 ->
  0 <= pr_curr p < 2 ^ 32 -> - 2 ^ 63 <= pr_pos p < 2 ^ 63 ->
  prange64b_xtoh (prange64b_htox p) = p.
Proof.
  intros [v b c q] H1 H2 H3 H4. cbn in H1, H2, H3, H4.
  unfold prange64b_xtoh, prange64b_htox. cbn [pr_pvid pr_base pr_curr pr_pos].
  rewrite !u32_id by lia. f_equal.
  - apply sub_hd; auto.
  - rewrite sub_skip by lia. rewrite H1. cbn [Nat.sub].
    rewrite sub_hd by apply le_enc_length. apply le_dec_enc. simpl. lia.
  - rewrite sub_skip by lia. rewrite H1. cbn [Nat.sub]. field_skip.
    rewrite sub_hd by apply le_enc_length. apply le_dec_enc. simpl. lia.
  - rewrite sub_skip by lia. rewrite H1. cbn [Nat.sub]. do 2 field_skip.
    rewrite sub_hd by apply le_enc_length. rewrite le_dec_enc; [apply s64_u64; auto|].
    change (256 ^ Z.of_nat 8) with (2 ^ 64). apply Z.mod_pos_bound. lia.
Qed.

Lemma s32_id : forall x, 0 <= x < 2 ^ 31 -> s32 x = x.
Proof.
  intros x H. unfold s32. change (2 ^ 31) with 2147483648 in *.
  rewrite Z.mod_small by (change (2 ^ 32) with 4294967296; lia).
  destruct (x <? 2147483648) eqn:X; lia.
Qed.

Section Fields.
Variables (C : crypto) (r : brec).
Hypothesis (SC : sized C) (W : brec_wf r).

Lemma plain_split : exists f8 a4 m4 ua pr h,
  boot_plain C r = le_enc 8 BOOT_MAGIC ++ le_enc 8 FMT_VERSION ++ br_uuid r ++ f8 ++ a4 ++ m4 ++ repeat 0 16 ++
    br_key r ++ br_iv r ++ br_riv r ++ ua ++ repeat 0 64 ++ pr ++ repeat 0 672 ++ h /\
  f8 = le_enc 8 (u64 (br_flags r)) /\ a4 = le_enc 4 (u32 (br_algo r)) /\ m4 = le_enc 4 (u32 (br_mode r)) /\
  ua = uaddr64b_htox (repeat 0 8) (br_uaddr r) /\ pr = prange64b_htox (br_prange r) /\
  h = c_sha3 C (boot_body r) /\
  length f8 = 8%nat /\ length a4 = 4%nat /\ length m4 = 4%nat /\ length ua = 64%nat /\ length pr = 64%nat.
Proof.
  do 6 eexists. split; [|repeat (split; [reflexivity|])].
  - unfold boot_plain at 1. unfold boot_body at 1. rewrite <- !app_assoc. reflexivity.
  - repeat split; try apply le_enc_length.
    + apply uaddr64b_length. apply W.
    + apply prange64b_length. apply W.
Qed.

Ltac skip1 := rewrite sub_skip by (rewrite ?le_enc_length, ?repeat_length; lia);
  match goal with
  | |- context [sub (?i - length (le_enc ?n ?v)) _ _] => rewrite (le_enc_length n v)
  | |- context [sub (?i - length (repeat ?n ?v)) _ _] => rewrite (repeat_length n v)
  | H : length ?l = _ |- context [sub (?i - length ?l) _ _] => rewrite H
  end; cbn [Nat.sub].
Ltac at_field := repeat skip1; rewrite sub_hd by (rewrite ?le_enc_length; auto).

Lemma plain_xtoh : boot_xtoh (boot_plain C r) = r.
Proof.
  destruct plain_split as (f8 & a4 & m4 & ua & pr & h & P & E1 & E2 & E3 & E4 & E5 & E6 & L1 & L2 & L3 & L4 & L5).
  pose proof (bw_uuid r W). pose proof (bw_key r W). pose proof (bw_iv r W). pose proof (bw_riv r W).
  unfold boot_xtoh. rewrite P.
  assert (Q1 : forall t, sub 128 64 (le_enc 8 BOOT_MAGIC ++ le_enc 8 FMT_VERSION ++ br_uuid r ++ f8 ++ a4 ++ m4 ++
     repeat 0 16 ++ br_key r ++ br_iv r ++ br_riv r ++ ua ++ t) = ua) by (intros; at_field; auto).
  assert (Q2 : forall t, sub 112 16 (le_enc 8 BOOT_MAGIC ++ le_enc 8 FMT_VERSION ++ br_uuid r ++ f8 ++ a4 ++ m4 ++
     repeat 0 16 ++ br_key r ++ br_iv r ++ br_riv r ++ t) = br_riv r) by (intros; at_field; auto).
  assert (Q3 : forall t, sub 32 8 (le_enc 8 BOOT_MAGIC ++ le_enc 8 FMT_VERSION ++ br_uuid r ++ f8 ++ t) = f8)
    by (intros; at_field; auto).
  assert (Q4 : forall t, sub 16 16 (le_enc 8 BOOT_MAGIC ++ le_enc 8 FMT_VERSION ++ br_uuid r ++ t) = br_uuid r)
    by (intros; at_field; auto).
  assert (Q5 : forall t, sub 64 32 (le_enc 8 BOOT_MAGIC ++ le_enc 8 FMT_VERSION ++ br_uuid r ++ f8 ++ a4 ++ m4 ++
     repeat 0 16 ++ br_key r ++ t) = br_key r) by (intros; at_field; auto).
  assert (Q6 : forall t, sub 96 16 (le_enc 8 BOOT_MAGIC ++ le_enc 8 FMT_VERSION ++ br_uuid r ++ f8 ++ a4 ++ m4 ++
     repeat 0 16 ++ br_key r ++ br_iv r ++ t) = br_iv r) by (intros; at_field; auto).
  assert (Q7 : forall t, sub 256 64 (le_enc 8 BOOT_MAGIC ++ le_enc 8 FMT_VERSION ++ br_uuid r ++ f8 ++ a4 ++ m4 ++
     repeat 0 16 ++ br_key r ++ br_iv r ++ br_riv r ++ ua ++ repeat 0 64 ++ pr ++ t) = pr) by (intros; at_field; auto).
  assert (Q8 : forall t, sub 40 4 (le_enc 8 BOOT_MAGIC ++ le_enc 8 FMT_VERSION ++ br_uuid r ++ f8 ++ a4 ++ t) = a4)
    by (intros; at_field; auto).
  assert (Q9 : forall t, sub 44 4 (le_enc 8 BOOT_MAGIC ++ le_enc 8 FMT_VERSION ++ br_uuid r ++ f8 ++ a4 ++ m4 ++ t) = m4)
    by (intros; at_field; auto).
  rewrite Q1, Q2, Q3, Q4, Q5, Q6, Q7, Q8, Q9. subst f8 a4 m4 ua pr.
  rewrite uaddr64b_roundtrip, prange_roundtrip; try apply W.
  2:{ split; [|split; apply W]. split; [apply W|]. rewrite (bw_height r W), (bw_ltype r W). pose proof (bw_lsize r W). pose proof (bw_vindex r W). pose proof (bw_vspace r W). lia. }
  2:{ rewrite (bw_voff r W). lia. }
  pose proof (bw_algo r W) as B1. pose proof (bw_mode r W) as B2.
  assert (G1 : 0 <= br_mode r < 2 ^ 31) by (change (2 ^ 31) with 2147483648; lia).
  assert (G2 : 0 <= br_algo r < 2 ^ 31) by (change (2 ^ 31) with 2147483648; lia).
  pose proof (bw_flags r W).
  rewrite u64_id by lia. rewrite (u32_id (br_algo r)), (u32_id (br_mode r)) by lia.
  rewrite !le_dec_enc; try (cbn [Z.of_nat]; change (256 ^ Z.of_nat 4) with (2 ^ 32);
    change (256 ^ Z.of_nat 8) with (2 ^ 64); lia).
  rewrite u32_id, !s32_id by auto. destruct r; reflexivity.
Qed.

Lemma plain_words : le_dec (sub 0 8 (boot_plain C r)) = BOOT_MAGIC /\ le_dec (sub 8 8 (boot_plain C r)) = FMT_VERSION /\
  sub 992 32 (boot_plain C r) = c_sha3 C (sub 0 992 (boot_plain C r)).
Proof.
  destruct plain_split as (f8 & a4 & m4 & ua & pr & h & P & _).
  split; [|split].
  - rewrite P, sub_hd by apply le_enc_length. apply le_dec_enc. vm_compute. split; [discriminate|auto].
  - rewrite P. field_skip. rewrite sub_hd by apply le_enc_length. apply le_dec_enc. vm_compute. split; [discriminate|auto].
  - unfold boot_plain. rewrite sub_hd by (apply body_length; auto).
    rewrite sub_skip by (rewrite body_length; auto). rewrite body_length, Nat.sub_diag by auto.
    apply sub_whole. apply SC.
Qed.

Lemma plain_verify : boot_verify C (boot_plain C r) = None.
Proof.
  destruct plain_words as (A1 & A2 & A3). 
  unfold boot_verify. rewrite A1, A2, !Z.eqb_refl. cbn [negb andb].
  rewrite plain_xtoh, (bw_ltype r W), (bw_height r W), (bw_voff r W). cbn [negb orb Z.eqb LT_SUPER H_SUPER Pos.eqb].
  unfold cipher_ok. rewrite (bw_algo r W).
  rewrite A3, (proj2 (bytes_eqb_eq _ _) eq_refl).
  destruct (bw_mode r W) as [->|[->| ->]]; reflexivity.
Qed.
End Fields.

Lemma boot_roundtrip : forall C pw r, sized C -> brec_wf r -> boot_dec C pw (boot_enc C pw r) = Ok r.
Proof.
  intros C pw r SC W. unfold boot_dec, boot_enc. rewrite seal_twice by (auto using plain_length).
  rewrite plain_verify, plain_xtoh by auto. auto.
Qed.

(* ---- what is accepted ---- *)
Lemma verify_none : forall C p, boot_verify C p = None ->
  le_dec (sub 0 8 p) = BOOT_MAGIC /\ le_dec (sub 8 8 p) = FMT_VERSION /\
  sub 992 32 p = c_sha3 C (sub 0 992 p) /\
  ls_ltype (la_lsid (ua_laddr (br_uaddr (boot_xtoh p)))) = 2 /\
  ls_height (la_lsid (ua_laddr (br_uaddr (boot_xtoh p)))) = 7 /\
  ua_voff (br_uaddr (boot_xtoh p)) = 0 /\ br_algo (boot_xtoh p) = 9 /\
  (br_mode (boot_xtoh p) = 3 \/ br_mode (boot_xtoh p) = 9 \/ br_mode (boot_xtoh p) = 13).
Proof.
  intros C p. unfold boot_verify, cipher_ok, LT_SUPER, H_SUPER, CIPHER_AES256.
  destruct (le_dec (sub 0 8 p) =? BOOT_MAGIC) eqn:A1; cbn [negb andb];
    [|destruct (negb (le_dec (sub 8 8 p) =? FMT_VERSION)); discriminate].
  destruct (le_dec (sub 8 8 p) =? FMT_VERSION) eqn:A2; cbn [negb andb]; [|discriminate].
  set (r := boot_xtoh p). cbn zeta.
  destruct (negb (ls_ltype (la_lsid (ua_laddr (br_uaddr r))) =? 2) ||
    negb (ls_height (la_lsid (ua_laddr (br_uaddr r))) =? 7) || negb (ua_voff (br_uaddr r) =? 0)) eqn:A3; [discriminate|].
  destruct ((br_algo r =? 9) && ((br_mode r =? 9) || (br_mode r =? 3) || (br_mode r =? 13))) eqn:A4; cbn [negb]; [|discriminate].
  destruct (bytes_eqb (sub 992 32 p) (c_sha3 C (sub 0 992 p))) eqn:A5; [|discriminate].
  intros _. apply bytes_eqb_eq in A5.
  rewrite Z.eqb_eq in A1, A2. repeat split; auto; lia.
Qed.

Lemma xtoh_says : forall C p, boot_verify C p = None -> says C p (boot_xtoh p).
Proof.
  intros C p V. apply verify_none in V. destruct V as (V1 & V2 & V3 & _).
  constructor; auto;
    try (cbn -[sub le_dec Z.pow]; unfold word, part; fold (sub 0 0 p);
         repeat (rewrite sub_sub by lia); reflexivity).
  - apply s32_signed.
  - apply s32_signed.
  - cbn [boot_xtoh br_uaddr uaddr64b_xtoh ua_voff]. rewrite sub_sub by lia. apply s64_signed.
  - cbn [boot_xtoh br_prange prange64b_xtoh pr_pos]. rewrite sub_sub by lia. apply s64_signed.
Qed.

(* ---- saving and loading ---- *)
Lemma bind_ok : forall A B (m : M A) (k : A -> M B) s b s', bind m k s = (Ok b, s') ->
  exists a s1, m s = (Ok a, s1) /\ k a s1 = (Ok b, s').
Proof.
  intros A B m k s b s' H. unfold bind in H. destruct (m s) as [[a|e|] s1]; try discriminate. eauto.
Qed.

Lemma may_fail_ok : forall e s u s', may_fail e s = (Ok u, s') -> s_repo s' = s_repo s.
Proof.
  intros e s u s' H. unfold may_fail, next_fate in H. destruct (s_fates s) as [|[|n] f]; inversion H; subst; auto.
Qed.

Lemma save_blob_ok : forall h b s u s', save_blob h b s = (Ok u, s') ->
  s_repo s' = upd_blob (s_repo s) h (overwrite b (contents (r_blobs (s_repo s) h))).
Proof.
  intros h b s u s' H. unfold save_blob in H. apply bind_ok in H. destruct H as (u1 & s1 & H1 & H).
  apply may_fail_ok in H1. unfold next_fate in H. rewrite <- H1.
  destruct (s_fates s1) as [|[|n] f]; inversion H; subst; auto.
Qed.

Lemma create_ref_ok : forall c s u s', create_ref c s = (Ok u, s') -> s_repo s' = upd_ref (s_repo s) c.
Proof.
  intros c s u s' H. unfold create_ref in H. apply bind_ok in H. destruct H as (u1 & s1 & H1 & H).
  apply may_fail_ok in H1. apply bind_ok in H. destruct H as (r & s2 & H2 & H).
  unfold get_repo in H2. inversion H2; subst. unfold set_repo in H. inversion H; subst. cbn. rewrite H1. auto.
Qed.

Lemma save_repo : forall C pw r s c s', boot_save C pw r s = (Ok c, s') ->
  c = boot_caddr_of C (boot_enc C pw r) /\
  s_repo s' = upd_ref (upd_blob (s_repo s) (ca_hash c)
    (overwrite (boot_enc C pw r) (contents (r_blobs (s_repo s) (ca_hash c))))) c.
Proof.
  intros C pw r s c s' H. unfold boot_save in H.
  apply bind_ok in H. destruct H as (u1 & s1 & H1 & H). apply save_blob_ok in H1.
  apply bind_ok in H. destruct H as (u2 & s2 & H2 & H). apply create_ref_ok in H2.
  unfold ret in H. inversion H; subst. split; auto. rewrite H2, H1. auto.
Qed.

Lemma overwrite_first : forall b o, length b = 1024%nat -> firstn 1024 (overwrite b o) = b.
Proof.
  intros b o L. unfold overwrite. rewrite firstn_app, L, Nat.sub_diag, firstn_O, app_nil_r.
  apply firstn_all2. lia.
Qed.

Lemma caddr_of_enc : forall C pw r, sized C -> brec_wf r ->
  boot_caddr_of C (boot_enc C pw r) = mkCaddr (c_sha256 C (boot_enc C pw r)) 1024 CT_BOOTREC.
Proof. intros. unfold boot_caddr_of. rewrite enc_length by auto. reflexivity. Qed.

Lemma save_held : forall C pw r s c s', sized C -> brec_wf r -> boot_save C pw r s = (Ok c, s') ->
  held C pw (s_repo s') c r.
Proof.
  intros C pw r s c s' SC W H. apply save_repo in H. destruct H as (Hc & HR).
  set (b := boot_enc C pw r) in *.
  assert (L : length b = 1024%nat) by (apply enc_length; auto).
  assert (HC : c = mkCaddr (c_sha256 C b) 1024 CT_BOOTREC) by (rewrite Hc; apply caddr_of_enc; auto).
  rewrite HR. split; [cbn [upd_ref r_refs]; rewrite caddr_eqb_refl; auto|].
  split; [rewrite HC; auto|]. split; [rewrite HC; auto|].
  exists (overwrite b (contents (r_blobs (s_repo s) (ca_hash c)))), (boot_plain C r).
  rewrite overwrite_first by auto.
  split; [cbn [upd_ref upd_blob r_blobs]; rewrite (proj2 (bytes_eqb_eq (ca_hash c) (ca_hash c)) eq_refl); auto|].
  split; [rewrite HC; auto|]. split; [apply plain_length; auto|].
  split; [unfold b, boot_enc; apply seal_eq; apply plain_length; auto|].
  rewrite <- (plain_xtoh C r W) at 2. apply xtoh_says. apply plain_verify; auto.
Qed.

Lemma save_keeps : forall C pw r s c s', boot_save C pw r s = (Ok c, s') ->
  r_segs (s_repo s') = r_segs (s_repo s) /\ r_packs (s_repo s') = r_packs (s_repo s) /\
  (forall h, h <> ca_hash c -> r_blobs (s_repo s') h = r_blobs (s_repo s) h) /\
  (forall x, x <> c -> r_refs (s_repo s') x = r_refs (s_repo s) x).
Proof.
  intros C pw r s c s' H. apply save_repo in H. destruct H as (_ & HR). rewrite HR.
  split; [auto|]. split; [auto|]. split.
  - intros h N. cbn [upd_ref upd_blob r_blobs]. destruct (bytes_eqb h (ca_hash c)) eqn:X; auto. apply bytes_eqb_eq in X. contradiction.
  - intros x N. cbn [upd_ref upd_blob r_refs]. rewrite caddr_eqb_neq; auto.
Qed.

Lemma load_inv : forall C pw c s r s', boot_load C pw c s = (Ok r, s') ->
  s_repo s' = s_repo s /\ r_refs (s_repo s) c = true /\
  exists e, r_blobs (s_repo s) (ca_hash c) = Some e /\ (1024 <= length e)%nat /\
    c = boot_caddr_of C (firstn 1024 e) /\ boot_dec C pw (firstn 1024 e) = Ok r.
Proof.
  intros C pw c s r s' H. unfold boot_load in H.
  apply bind_ok in H. destruct H as (u1 & s1 & H1 & H). apply may_fail_ok in H1.
  apply bind_ok in H. destruct H as (R & s2 & H2 & H). unfold get_repo in H2.
  assert (E1 : R = s_repo s1) by congruence. assert (E2 : s2 = s1) by congruence. subst R s2. clear H2.
  destruct (r_refs (s_repo s1) c) eqn:RF; cbn [negb] in H; [|discriminate].
  apply bind_ok in H. destruct H as (u3 & s3 & H3 & H). apply may_fail_ok in H3.
  destruct (r_blobs (s_repo s1) (ca_hash c)) as [e|] eqn:BE; [|discriminate].
  destruct (Z.of_nat (length e) <? BOOTREC_SIZE) eqn:LE; [discriminate|].
  unfold BOOTREC_SIZE in *. change (Z.to_nat 1024) with 1024%nat in H.
  destruct (caddr_eqb c (boot_caddr_of C (firstn 1024 e))) eqn:CE; cbn [negb] in H; [|discriminate].
  destruct (boot_dec C pw (firstn 1024 e)) as [br|er|] eqn:D; try discriminate.
  unfold ret in H. assert (br = r) by congruence. assert (s3 = s') by congruence. subst br s3.
  rewrite <- H1. split; [congruence|]. split; [auto|]. exists e.
  split; [auto|]. split; [lia|]. split; [apply caddr_eqb_eq; auto|auto].
Qed.

Lemma dec_says : forall C pw e r, sized C -> length e = 1024%nat -> boot_dec C pw e = Ok r ->
  says C (xor_bytes e (pad_of C pw)) r /\
  ls_ltype (la_lsid (ua_laddr (br_uaddr r))) = 2 /\ ls_height (la_lsid (ua_laddr (br_uaddr r))) = 7 /\
  ua_voff (br_uaddr r) = 0 /\ br_algo r = 9 /\ (br_mode r = 3 \/ br_mode r = 9 \/ br_mode r = 13).
Proof.
  intros C pw e r SC L H. unfold boot_dec in H. rewrite seal_eq in H by auto.
  destruct (boot_verify C (xor_bytes e (pad_of C pw))) eqn:V; [discriminate|].
  assert (E : boot_xtoh (xor_bytes e (pad_of C pw)) = r) by congruence. rewrite <- E.
  split; [apply xtoh_says; auto|]. apply verify_none in V. tauto.
Qed.

Lemma load_held : forall C pw c s r s', sized C -> boot_load C pw c s = (Ok r, s') ->
  s_repo s' = s_repo s /\ held C pw (s_repo s) c r.
Proof.
  intros C pw c s r s' SC H. apply load_inv in H. destruct H as (HR & RF & e & BE & LE & HC & D).
  split; [auto|]. assert (L : length (firstn 1024 e) = 1024%nat) by (rewrite firstn_length; lia).
  split; [auto|]. rewrite HC. unfold boot_caddr_of at 1 2. cbn [ca_size ca_type]. rewrite L.
  split; [reflexivity|]. split; [reflexivity|]. rewrite <- HC.
  exists e, (xor_bytes (firstn 1024 e) (pad_of C pw)).
  split; [auto|]. split; [rewrite HC; auto|].
  split; [rewrite xor_bytes_length, L, pad_length by auto; auto|].
  split; [rewrite xor_twice; auto; rewrite pad_length, L; auto|].
  apply dec_says; auto.
Qed.

(* two readings of the same bytes *)
Lemma signed_det : forall w x y z, 0 < w -> signed w x y -> signed w x z -> y = z.
Proof.
  intros w x y z Hw (A1 & A2) (B1 & B2).
  assert (P : 2 ^ w = 2 * 2 ^ (w - 1)) by (rewrite <- Z.pow_succ_r by lia; f_equal; lia).
  assert (PP : 0 < 2 ^ (w - 1)) by (apply Z.pow_pos_nonneg; lia).
  apply Z.mod_divide in A2; [|lia]. apply Z.mod_divide in B2; [|lia].
  destruct A2 as (a & A2). destruct B2 as (b & B2).
  assert (D : z - y = (a - b) * 2 ^ w) by lia.
  assert (a - b = 0) by (destruct (Z_lt_dec (a - b) 0); [|destruct (Z_lt_dec 0 (a - b)); [|lia]]; exfalso; nia).
  nia.
Qed.

Lemma says_det : forall C p r1 r2, says C p r1 -> says C p r2 -> r1 = r2.
Proof.
  intros C p r1 r2 A B. destruct A, B.
  destruct r1 as [[[[l1 a1 b1 c1 d1 e1] f1 g1] h1] i1 j1 k1 m1 n1 [o1 p1 q1 s1] t1 u1].
  destruct r2 as [[[[l2 a2 b2 c2 d2 e2] f2 g2] h2] i2 j2 k2 m2 n2 [o2 p2 q2 s2] t2 u2].
  cbn -[Z.pow] in *. subst.
  repeat f_equal; eapply signed_det; eauto; lia.
Qed.

Lemma held_det : forall C pw R c r1 r2, sized C -> held C pw R c r1 -> held C pw R c r2 -> r1 = r2.
Proof.
  intros C pw R c r1 r2 SC (_ & _ & _ & e1 & p1 & A1 & _ & A2 & A3 & A4) (_ & _ & _ & e2 & p2 & B1 & _ & B2 & B3 & B4).
  assert (e1 = e2) by congruence. subst e2.
  assert (p1 = p2).
  { rewrite <- (xor_twice p1 (pad_of C pw)) by (rewrite pad_length; auto). rewrite <- A3, B3.
    apply xor_twice. rewrite pad_length; auto. }
  subst p2. eapply says_det; eauto.
Qed.

Lemma load_exact : forall C pw r s1 c s1' s2 r' s2', sized C -> brec_wf r ->
  boot_save C pw r s1 = (Ok c, s1') ->
  no_clash C (s_repo s2) (boot_enc C pw r) ->
  boot_load C pw c s2 = (Ok r', s2') -> r' = r.
Proof.
  intros C pw r s1 c s1' s2 r' s2' SC W SV NC LD.
  apply save_repo in SV. destruct SV as (HC & _).
  apply load_inv in LD. destruct LD as (_ & _ & e & BE & LE & HC2 & D).
  assert (E : firstn 1024 e = boot_enc C pw r).
  { apply NC; [rewrite <- BE, HC; auto|].
    change (c_sha256 C (firstn 1024 e)) with (ca_hash (boot_caddr_of C (firstn 1024 e))).
    rewrite <- HC2, HC. auto. }
  rewrite E, boot_roundtrip in D by auto. congruence.
Qed.

Lemma load_back : forall C pw r s1 c s1', sized C -> brec_wf r ->
  boot_save C pw r s1 = (Ok c, s1') ->
  forall s2, s_repo s2 = s_repo s1' -> s_fates s2 = [] -> fst (boot_load C pw c s2) = Ok r.
Proof.
  intros C pw r s1 c s1' SC W SV s2 HR HF.
  apply save_repo in SV. destruct SV as (HC & SR). rewrite <- HR in SR. clear HR.
  set (b := boot_enc C pw r) in *.
  assert (L : length b = 1024%nat) by (apply enc_length; auto).
  unfold boot_load, bind, may_fail, next_fate, get_repo. rewrite HF.
  rewrite SR. cbn [upd_ref upd_blob r_refs r_blobs]. rewrite caddr_eqb_refl. cbn [orb negb].
  rewrite HF. rewrite (proj2 (bytes_eqb_eq _ _) eq_refl).
  set (o := contents (r_blobs (s_repo s1) (ca_hash c))).
  unfold BOOTREC_SIZE. change (Z.to_nat 1024) with 1024%nat.
  destruct (Z.of_nat (length (overwrite b o)) <? 1024) eqn:X.
  { unfold overwrite in X. rewrite app_length, L in X. lia. }
  rewrite overwrite_first by auto. rewrite <- HC, caddr_eqb_refl. cbn [negb].
  unfold b. rewrite boot_roundtrip by auto. reflexivity.
Qed.

(* ---- the environment of the archive ---- *)
Lemma boot_load_pack : forall C pw E c s, sized C ->
  match boot_load C pw c s with
  | (Ok r, s') => load_bootrec (boot_env C pw E) c s = (Ok (boot_plain C r), s')
  | (Err e, s') => exists e', load_bootrec (boot_env C pw E) c s = (Err e', s')
  | (Abort, _) => False
  end.
Proof.
  intros C pw E c s SC. unfold boot_load, load_bootrec, bind.
  destruct (may_fail EIo s) as [[u|e|] s1] eqn:F1; eauto.
  2:{ unfold may_fail in F1. destruct (next_fate s) as [[|n] s0]; discriminate. }
  unfold get_repo. destruct (negb (r_refs (s_repo s1) c)); [unfold fail; eauto|].
  destruct (may_fail EIo s1) as [[u2|e|] s2] eqn:F2; eauto.
  2:{ unfold may_fail in F2. destruct (next_fate s1) as [[|n] s0]; discriminate. }
  destruct (r_blobs (s_repo s1) (ca_hash c)) as [e|]; [|unfold fail; eauto].
  destruct (Z.of_nat (length e) <? BOOTREC_SIZE); [unfold fail; eauto|].
  cbn zeta. change (caddr_of (boot_env C pw E) (firstn (Z.to_nat BOOTREC_SIZE) e) CT_BOOTREC)
    with (boot_caddr_of C (firstn (Z.to_nat BOOTREC_SIZE) e)).
  destruct (negb (caddr_eqb c (boot_caddr_of C (firstn (Z.to_nat BOOTREC_SIZE) e)))); [unfold fail; eauto|].
  cbn [boot_env e_bdec]. unfold boot_dec.
  destruct (boot_verify C (boot_seal C pw (firstn (Z.to_nat BOOTREC_SIZE) e))); unfold fail, ret; eauto.
Qed.

Lemma save_boot_ok : forall C pw E r s c s', sized C -> brec_wf r -> boot_save C pw r s = (Ok c, s') ->
  boot_ok (boot_env C pw E) (s_repo s') c (boot_enc C pw r).
Proof.
  intros C pw E r s c s' SC W H. apply save_repo in H. destruct H as (HC & HR).
  rewrite caddr_of_enc in HC by auto. set (b := boot_enc C pw r) in *.
  assert (L : length b = 1024%nat) by (apply enc_length; auto).
  rewrite HR. split; [cbn [upd_ref r_refs]; rewrite caddr_eqb_refl; auto|].
  split; [exists (overwrite b (contents (r_blobs (s_repo s) (ca_hash c)))); split; [cbn [upd_ref upd_blob r_blobs]; rewrite (proj2 (bytes_eqb_eq (ca_hash c) (ca_hash c)) eq_refl); auto|apply overwrite_first; auto]|].
  split; [auto|]. split; [auto|]. exists (boot_plain C r). cbn [boot_env e_bdec e_benc].
  unfold b. rewrite boot_roundtrip by auto. auto.
Qed.

(* ---- a different password ---- *)
Lemma le_dec_inj : forall a b, length a = length b -> all_bytes a -> all_bytes b -> le_dec a = le_dec b -> a = b.
Proof.
  intros a b L A B E. rewrite <- (le_enc_dec a A), <- (le_enc_dec b B), L, E. auto.
Qed.

Lemma all_bytes_xor : forall a b, all_bytes a -> all_bytes b -> all_bytes (xor_bytes a b).
Proof.
  induction a as [|x a IH]; intros [|y b] A B; cbn [xor_bytes]; try constructor.
  - inversion A; subst. inversion B; subst. unfold is_byte in *.
    assert (P : 0 <= Z.lxor x y) by (apply Z.lxor_nonneg; lia).
    split; [auto|].
    destruct (Z.eq_dec (Z.lxor x y) 0) as [->|N]; [lia|].
    apply Z.log2_lt_pow2 with (b := 8); [lia|].
    eapply Z.le_lt_trans; [apply Z.log2_lxor; lia|].
    assert (Hx : Z.log2 x < 8) by (destruct (Z.eq_dec x 0) as [->|]; [cbn; lia|apply Z.log2_lt_pow2; [lia|cbn; lia]]).
    assert (Hy : Z.log2 y < 8) by (destruct (Z.eq_dec y 0) as [->|]; [cbn; lia|apply Z.log2_lt_pow2; [lia|cbn; lia]]).
    lia.
  - apply IH; [inversion A|inversion B]; auto.
Qed.

Lemma all_bytes_part : forall b i n, all_bytes b -> all_bytes (part b i n).
Proof.
  intros b i n H. unfold part, all_bytes in *. rewrite Forall_forall in *. intros x Hx.
  apply H. apply firstn_In in Hx || (apply In_nth_error in Hx; destruct Hx as (k & Hk)).
  rewrite <- (firstn_skipn i b). apply in_or_app. right.
  rewrite <- (firstn_skipn n (skipn i b)). apply in_or_app. left. eapply nth_error_In; eauto.
Qed.

(* a word of the record, read under another password *)
Lemma other_word : forall C pw pw' r i v, sized C -> brec_wf r ->
  all_bytes (pad_of C pw) -> all_bytes (pad_of C pw') ->
  (i + 8 <= 1024)%nat -> 0 <= v < 2 ^ 64 -> part (boot_plain C r) i 8 = le_enc 8 v ->
  (le_dec (sub i 8 (boot_seal C pw' (boot_enc C pw r))) = v <-> part (pad_of C pw) i 8 = part (pad_of C pw') i 8).
Proof.
  intros C pw pw' r i v SC W P1 P2 Hi Hv E.
  pose proof (plain_length C r SC W) as L. pose proof (pad_length C pw SC) as L1. pose proof (pad_length C pw' SC) as L2.
  rewrite seal_eq by (apply enc_length; auto). unfold boot_enc. rewrite seal_eq by auto.
  change (sub i 8) with (fun b => part b i 8). cbn beta.
  assert (LX : length (xor_bytes (boot_plain C r) (pad_of C pw)) = 1024%nat) by (rewrite xor_bytes_length; lia).
  rewrite !part_xor, E by lia.
  set (a := part (pad_of C pw) i 8). set (b := part (pad_of C pw') i 8).
  assert (La : length a = 8%nat) by (apply part_length; lia).
  assert (Lb : length b = 8%nat) by (apply part_length; lia).
  split.
  - intros H.
    assert (H2 : xor_bytes (xor_bytes (le_enc 8 v) a) b = le_enc 8 v).
    { apply le_dec_inj.
      - rewrite !xor_bytes_length, le_enc_length. lia.
      - apply all_bytes_xor; [apply all_bytes_xor; [apply le_enc_bytes|]|]; apply all_bytes_part; auto.
      - apply le_enc_bytes.
      - rewrite H, le_dec_enc; auto. }
    apply (f_equal (fun x => xor_bytes x b)) in H2.
    rewrite (xor_twice _ b) in H2 by (rewrite xor_bytes_length, le_enc_length; lia).
    eapply xor_bytes_cancel; [| |exact H2]; rewrite le_enc_length; auto.
  - intros ->. rewrite xor_twice by (rewrite le_enc_length; auto). apply le_dec_enc. auto.
Qed.

Lemma plain_head : forall C r, brec_wf r ->
  part (boot_plain C r) 0 8 = le_enc 8 BOOT_MAGIC /\ part (boot_plain C r) 8 8 = le_enc 8 FMT_VERSION.
Proof.
  intros C r W. destruct (plain_split C r W) as (f8 & a4 & m4 & ua & pr & h & P & _). rewrite P.
  split; change part with (fun b i n => sub i n b); cbn beta.
  - apply sub_hd, le_enc_length.
  - field_skip. apply sub_hd, le_enc_length.
Qed.

Lemma wrong_password : forall C pw pw' r, sized C -> brec_wf r ->
  all_bytes (pad_of C pw) -> all_bytes (pad_of C pw') ->
  (part (pad_of C pw) 0 8 <> part (pad_of C pw') 0 8 -> part (pad_of C pw) 8 8 <> part (pad_of C pw') 8 8 ->
   boot_dec C pw' (boot_enc C pw r) = Err EKeyexp) /\
  (part (pad_of C pw) 0 8 <> part (pad_of C pw') 0 8 \/ part (pad_of C pw) 8 8 <> part (pad_of C pw') 8 8 ->
   exists e, boot_dec C pw' (boot_enc C pw r) = Err e).
Proof.
  intros C pw pw' r SC W P1 P2. destruct (plain_head C r W) as (H1 & H2).
  assert (G1 := other_word C pw pw' r 0 BOOT_MAGIC SC W P1 P2 ltac:(lia) ltac:(unfold BOOT_MAGIC; lia) H1).
  assert (G2 := other_word C pw pw' r 8 FMT_VERSION SC W P1 P2 ltac:(lia) ltac:(unfold FMT_VERSION; lia) H2).
  unfold boot_dec, boot_verify. cbn zeta.
  set (q := boot_seal C pw' (boot_enc C pw r)) in *.
  destruct (Z.eqb_spec (le_dec (sub 0 8 q)) BOOT_MAGIC) as [A|A];
  destruct (Z.eqb_spec (le_dec (sub 8 8 q)) FMT_VERSION) as [B|B]; cbn [negb andb]; split; intros; eauto; try tauto.
Qed.

(* ---- one key stream for all ---- *)
Lemma streams_cancel : forall C pw r1 r2, sized C -> brec_wf r1 -> brec_wf r2 ->
  xor_bytes (boot_enc C pw r1) (boot_enc C pw r2) = xor_bytes (boot_plain C r1) (boot_plain C r2).
Proof.
  intros C pw r1 r2 SC W1 W2. unfold boot_enc. rewrite !seal_eq by (apply plain_length; auto).
  set (k := pad_of C pw). assert (Lk : length k = 1024%nat) by (apply pad_length; auto).
  pose proof (plain_length C r1 SC W1). pose proof (plain_length C r2 SC W2).
  rewrite xor_bytes_assoc, (xor_bytes_comm k), xor_bytes_assoc, xor_self, Lk.
  rewrite xor_bytes_zero; auto.
Qed.

Lemma plain_key : forall C r, brec_wf r -> part (boot_plain C r) 64 32 = br_key r.
Proof.
  intros C r W. change (part (boot_plain C r) 64 32) with (br_key (boot_xtoh (boot_plain C r))).
  rewrite plain_xtoh; auto.
Qed.

(* ---- a save, finished or not, and the other records ---- *)
Lemma bind_any : forall A B (m : M A) (k : A -> M B) s x s', bind m k s = (x, s') ->
  (exists a s1, m s = (Ok a, s1) /\ k a s1 = (x, s')) \/ (exists y, m s = (y, s')).
Proof.
  intros A B m k s x s' H. unfold bind in H. destruct (m s) as [[a|e|] s1]; [left; eauto| |];
  right; eexists; f_equal; congruence.
Qed.

Lemma may_fail_any : forall e s x s', may_fail e s = (x, s') -> s_repo s' = s_repo s.
Proof.
  intros e s x s' H. unfold may_fail, next_fate in H. destruct (s_fates s) as [|[|n] f]; inversion H; subst; auto.
Qed.

Definition wrote (h b : bytes) (R R' : repo) : Prop :=
  (forall c, r_refs R c = true -> r_refs R' c = true) /\
  forall k, r_blobs R' k = r_blobs R k \/
    k = h /\ exists n, r_blobs R' k = Some (overwrite (firstn n b) (contents (r_blobs R k))).

Lemma wrote_refl : forall h b R, wrote h b R R.
Proof. intros. split; auto. Qed.

Lemma save_blob_any : forall h b s x s', save_blob h b s = (x, s') -> wrote h b (s_repo s) (s_repo s').
Proof.
  intros h b s x s' H. unfold save_blob in H. apply bind_any in H. destruct H as [(u & s1 & H1 & H)|(y & H)].
  2:{ apply may_fail_any in H. rewrite H. apply wrote_refl. }
  apply may_fail_any in H1. rewrite <- H1. unfold next_fate in H.
  assert (G : forall n R, wrote h b R (upd_blob R h (overwrite (firstn n b) (contents (r_blobs R h))))).
  { intros n R. split; [auto|]. intros k. cbn. destruct (bytes_eqb k h) eqn:X; auto.
    apply bytes_eqb_eq in X. subst. right. split; auto. exists n. auto. }
  destruct (s_fates s1) as [|[|n] f]; inversion H; subst; cbn.
  - rewrite <- (firstn_all b) at 2. apply G.
  - rewrite <- (firstn_all b) at 2. apply G.
  - apply G.
Qed.

Lemma save_any : forall C pw r s x s', boot_save C pw r s = (x, s') ->
  wrote (c_sha256 C (boot_enc C pw r)) (boot_enc C pw r) (s_repo s) (s_repo s').
Proof.
  intros C pw r s x s' H. unfold boot_save in H. cbn zeta in H.
  change (ca_hash (boot_caddr_of C (boot_enc C pw r))) with (c_sha256 C (boot_enc C pw r)) in H.
  set (b := boot_enc C pw r) in *.
  apply bind_any in H. destruct H as [(u & s1 & H1 & H)|(y & H)]; [|eapply save_blob_any; eauto].
  apply save_blob_any in H1.
  assert (G : r_blobs (s_repo s') = r_blobs (s_repo s1) /\
    forall c, r_refs (s_repo s1) c = true -> r_refs (s_repo s') c = true).
  { assert (GR : forall y s2, create_ref (boot_caddr_of C b) s1 = (y, s2) ->
      r_blobs (s_repo s2) = r_blobs (s_repo s1) /\ forall c, r_refs (s_repo s1) c = true -> r_refs (s_repo s2) c = true).
    { intros y s2 X. unfold create_ref in X. apply bind_any in X. destruct X as [(u2 & s3 & X1 & X)|(z & X)].
      2:{ apply may_fail_any in X. rewrite X. auto. }
      apply may_fail_any in X1. rewrite <- X1. unfold bind, get_repo, set_repo in X. inversion X; subst. cbn [s_repo upd_ref r_blobs r_refs].
      split; auto. intros c ->. apply orb_true_r. }
    apply bind_any in H. destruct H as [(u2 & s2 & H2 & H)|(y & H)]; [|eauto].
    unfold ret in H. inversion H; subst. eauto. }
  destruct G as (G1 & G2). destruct H1 as (W1 & W2). split; [auto|]. intros k. rewrite G1. auto.
Qed.

Lemma overwrite_prefix : forall n b e, firstn (length b) e = b -> overwrite (firstn n b) e = e.
Proof.
  intros n b e H. unfold overwrite.
  assert (L : (length b <= length e)%nat) by (rewrite <- H at 1; rewrite firstn_length; lia).
  assert (E : firstn n b = firstn (length (firstn n b)) e).
  { rewrite <- H at 1. rewrite firstn_firstn, firstn_length. auto. }
  rewrite E at 1. apply firstn_skipn.
Qed.

Lemma save_spares : forall C pw r s x s' pw0 c0 r0, sized C -> brec_wf r ->
  boot_save C pw r s = (x, s') -> no_clash C (s_repo s) (boot_enc C pw r) ->
  held C pw0 (s_repo s) c0 r0 -> held C pw0 (s_repo s') c0 r0.
Proof.
  intros C pw r s x s' pw0 c0 r0 SC W H NC (H1 & H2 & H3 & e & p & H4 & H5 & H6 & H7 & H8).
  apply save_any in H. destruct H as (W1 & W2).
  split; [auto|]. split; [auto|]. split; [auto|]. exists e, p. split; [|auto].
  destruct (W2 (ca_hash c0)) as [->|(K & n & ->)]; [auto|]. rewrite H4. cbn [contents].
  f_equal. apply overwrite_prefix. rewrite enc_length by auto.
  apply NC; [rewrite <- K; auto|congruence].
Qed.
