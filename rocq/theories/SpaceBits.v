(* Bits of one block reference and the sums over them. *)
From Verif Require Import Base AddrModel MapModel SpaModel SpaProofs SpaceModel.

(* ---- sums ---- *)
Lemma sumn_ext : forall n f g, (forall j, 0 <= j < Z.of_nat n -> f j = g j) -> sumn n f = sumn n g.
Proof.
  induction n; intros f g H; [reflexivity|]. cbn [sumn]. rewrite (IHn f g) by (intros; apply H; lia).
  rewrite H by lia. reflexivity.
Qed.
Lemma sumn_add : forall n f g, sumn n (fun j => f j + g j) = sumn n f + sumn n g.
Proof. induction n; intros; cbn [sumn]; [lia|]. rewrite IHn. lia. Qed.
Lemma sumn_scale : forall n f c, sumn n (fun j => c * f j) = c * sumn n f.
Proof. induction n; intros; cbn [sumn]; [lia|]. rewrite IHn. lia. Qed.
Lemma sumn_const : forall n c, sumn n (fun _ => c) = Z.of_nat n * c.
Proof. induction n; intros; cbn [sumn]; [lia|]. rewrite IHn. lia. Qed.
Lemma sumn_range : forall n a k, 0 <= a -> 0 <= k ->
  sumn n (fun j => Z.b2z ((a <=? j) && (j <? a + k))) = Z.min (Z.of_nat n) (a + k) - Z.min (Z.of_nat n) a.
Proof.
  induction n; intros a k Ha Hk; cbn [sumn]; [lia|]. rewrite IHn by lia.
  destruct (Z.leb_spec a (Z.of_nat n)); destruct (Z.ltb_spec (Z.of_nat n) (a + k)); cbn [andb Z.b2z]; lia.
Qed.
Lemma sumn_point : forall n f g k d, 0 <= k < Z.of_nat n ->
  (forall j, 0 <= j < Z.of_nat n -> g j = f j + (if j =? k then d else 0)) -> sumn n g = sumn n f + d.
Proof.
  intros n f g k d Hk H. rewrite (sumn_ext n g (fun j => f j + d * Z.b2z ((k <=? j) && (j <? k + 1)))).
  - rewrite sumn_add, sumn_scale, sumn_range by lia. nia.
  - intros j Hj. rewrite H by auto. destruct (Z.eqb_spec j k); destruct (Z.leb_spec k j); destruct (Z.ltb_spec j (k + 1)); cbn [andb Z.b2z]; lia.
Qed.
Lemma sumn_app : forall a b f, sumn (a + b) f = sumn a f + sumn b (fun j => f (Z.of_nat a + j)).
Proof.
  intros a b. induction b; intros f; [rewrite Nat.add_0_r; cbn [sumn]; lia|].
  rewrite Nat.add_succ_r. cbn [sumn]. rewrite IHb. replace (Z.of_nat (a + b)) with (Z.of_nat a + Z.of_nat b) by lia. lia.
Qed.
Lemma sumn_split : forall a b f, sumn (a * b) f = sumn a (fun k => sumn b (fun q => f (k * Z.of_nat b + q))).
Proof.
  induction a; intros b f; [reflexivity|]. cbn [sumn]. rewrite <- IHa. rewrite Nat.mul_comm. cbn [Nat.mul]. 
  replace (b * S a)%nat with (a * b + b)%nat by lia. rewrite sumn_app.
  f_equal. apply sumn_ext. intros j Hj. f_equal. lia.
Qed.

(* ---- masks ---- *)
Lemma mask_bits : forall a k j, 0 <= a -> 0 <= k -> a + k <= 64 -> 0 <= j ->
  Z.testbit (bk_mask a k) j = (a <=? j) && (j <? a + k).
Proof.
  intros a k j Ha Hk Hs Hj. unfold bk_mask.
  destruct (Z.ltb_spec a 64) as [L|L].
  - unfold mask_of. rewrite Z.min_l by lia. destruct (Z.ltb_spec k 64) as [K|K].
    + rewrite Z.land_spec, Z.shiftl_spec by lia. destruct (Z.leb_spec a j).
      * rewrite !Z.testbit_ones_nonneg by lia. destruct (Z.ltb_spec (j - a) k); destruct (Z.ltb_spec j 64); destruct (Z.ltb_spec j (a + k)); simpl; lia.
      * rewrite Z.testbit_neg_r by lia. reflexivity.
    + rewrite Z.testbit_ones_nonneg by lia. destruct (Z.leb_spec a j); destruct (Z.ltb_spec j (a + k)); destruct (Z.ltb_spec j 64); simpl; lia.
  - rewrite Z.bits_0. destruct (Z.leb_spec a j); destruct (Z.ltb_spec j (a + k)); simpl; lia.
Qed.
Definition st64 (x : Z) : Prop := 0 <= x /\ forall j, 64 <= j -> Z.testbit x j = false.
Lemma bits_eq : forall x y, st64 x -> st64 y -> (forall j, 0 <= j < 64 -> Z.testbit x j = Z.testbit y j) -> x = y.
Proof.
  intros x y [X1 X2] [Y1 Y2] H. apply Z.bits_inj'. intros j Hj.
  destruct (Z.ltb_spec j 64); [apply H; lia|]. rewrite X2, Y2 by lia. reflexivity.
Qed.
Lemma st64_0 : st64 0. Proof. split; [lia|]. intros. apply Z.bits_0. Qed.
Lemma st64_mask : forall a k, 0 <= a -> 0 <= k -> a + k <= 64 -> st64 (bk_mask a k).
Proof.
  intros a k Ha Hk Hs. split.
  - unfold bk_mask, mask_of. destruct (_ <? _); [|lia]. destruct (_ <? _).
    + apply Z.land_nonneg. right. rewrite Z.ones_equiv. lia.
    + rewrite Z.ones_equiv. lia.
  - intros j Hj. rewrite mask_bits by lia. destruct (Z.leb_spec a j); destruct (Z.ltb_spec j (a + k)); simpl; lia.
Qed.
Lemma st64_lor : forall x y, st64 x -> st64 y -> st64 (Z.lor x y).
Proof.
  intros x y [X1 X2] [Y1 Y2]. split; [apply Z.lor_nonneg; auto|].
  intros j Hj. rewrite Z.lor_spec, X2, Y2 by auto. reflexivity.
Qed.
Lemma st64_land : forall x y, st64 x -> st64 (Z.land x y).
Proof.
  intros x y [X1 X2]. split; [apply Z.land_nonneg; auto|].
  intros j Hj. rewrite Z.land_spec, X2 by auto. reflexivity.
Qed.
Lemma st64_ldiff : forall x y, st64 x -> st64 (Z.ldiff x y).
Proof.
  intros x y [X1 X2]. split; [apply Z.ldiff_nonneg; auto|].
  intros j Hj. rewrite Z.ldiff_spec, X2 by auto. reflexivity.
Qed.
Lemma has_none_bits : forall st a k, st64 st -> 0 <= a -> 0 <= k -> a + k <= 64 ->
  has_mask_none st (bk_mask a k) = true -> forall j, a <= j < a + k -> Z.testbit st j = false.
Proof.
  intros st a k Hs Ha Hk Hb H j Hj. unfold has_mask_none in H. apply Z.eqb_eq in H.
  assert (E : Z.testbit (Z.land st (bk_mask a k)) j = false) by (rewrite H; apply Z.bits_0).
  rewrite Z.land_spec, mask_bits in E by lia.
  destruct (Z.leb_spec a j); destruct (Z.ltb_spec j (a + k)); try lia. simpl in E. rewrite andb_true_r in E. auto.
Qed.
Lemma has_none_intro : forall st a k, st64 st -> 0 <= a -> 0 <= k -> a + k <= 64 ->
  (forall j, a <= j < a + k -> Z.testbit st j = false) -> has_mask_none st (bk_mask a k) = true.
Proof.
  intros st a k Hs Ha Hk Hb H. unfold has_mask_none. apply Z.eqb_eq. apply bits_eq; [apply st64_land; auto|apply st64_0|].
  intros j Hj. rewrite Z.land_spec, mask_bits, Z.bits_0 by lia.
  destruct (Z.leb_spec a j); destruct (Z.ltb_spec j (a + k)); simpl; try (apply andb_false_r). rewrite H by lia. reflexivity.
Qed.
Lemma has_mask_iff : forall st a k, st64 st -> 0 <= a -> 0 <= k -> a + k <= 64 ->
  (has_mask st (bk_mask a k) = true <-> forall j, a <= j < a + k -> Z.testbit st j = true).
Proof.
  intros st a k Hs Ha Hk Hb. unfold has_mask. rewrite Z.eqb_eq. split.
  - intros H j Hj. assert (E : Z.testbit (Z.land st (bk_mask a k)) j = Z.testbit (bk_mask a k) j) by (rewrite H; reflexivity).
    rewrite Z.land_spec, mask_bits in E by lia.
    destruct (Z.leb_spec a j); destruct (Z.ltb_spec j (a + k)); try lia. simpl in E. rewrite andb_true_r in E. auto.
  - intros H. apply bits_eq; [apply st64_land; auto|apply st64_mask; auto|].
    intros j Hj. rewrite Z.land_spec, mask_bits by lia.
    destruct (Z.leb_spec a j); destruct (Z.ltb_spec j (a + k)); simpl; try (apply andb_false_r). rewrite H by lia. reflexivity.
Qed.
Lemma pos_bit : forall x, st64 x -> 0 < x -> exists j, 0 <= j < 64 /\ Z.testbit x j = true.
Proof.
  intros x [X1 X2] Hx. pose proof (Z.bit_log2 x Hx) as Hb. pose proof (Z.log2_nonneg x) as Hn.
  exists (Z.log2 x). split; [|auto]. split; [auto|]. destruct (Z.ltb_spec (Z.log2 x) 64) as [L|L]; auto.
  rewrite X2 in Hb by lia. discriminate.
Qed.
Lemma other_iff : forall st a k, st64 st -> 0 <= a -> 0 <= k -> a + k <= 64 ->
  (has_mask_any st (bk_mask_other a k) = true <-> exists j, 0 <= j < 64 /\ (j < a \/ a + k <= j) /\ Z.testbit st j = true).
Proof.
  intros st a k Hs Ha Hk Hb. unfold has_mask_any, bk_mask_other. rewrite Z.ltb_lt.
  assert (B : forall j, 0 <= j < 64 -> Z.testbit (Z.land st (Z.ldiff (Z.ones 64) (bk_mask a k))) j = Z.testbit st j && negb ((a <=? j) && (j <? a + k))).
  { intros j Hj. rewrite Z.land_spec, Z.ldiff_spec, mask_bits, Z.testbit_ones_nonneg by lia.
    destruct (Z.ltb_spec j 64); [|lia]. reflexivity. }
  split.
  - intros H. apply pos_bit in H; [|apply st64_land; auto]. destruct H as [j [Hj E]]. exists j. split; [auto|].
    rewrite B in E by auto. apply andb_true_iff in E. destruct E as [E1 E2].
    destruct (Z.leb_spec a j); destruct (Z.ltb_spec j (a + k)); simpl in E2; try discriminate; split; auto; lia.
  - intros [j [Hj [Ho E]]]. assert (N : 0 <= Z.land st (Z.ldiff (Z.ones 64) (bk_mask a k))) by (apply Z.land_nonneg; left; apply Hs).
    assert (Z.land st (Z.ldiff (Z.ones 64) (bk_mask a k)) <> 0); [|lia]. intros Z0. specialize (B j Hj). rewrite Z0, Z.bits_0, E in B.
    destruct (Z.leb_spec a j); destruct (Z.ltb_spec j (a + k)); simpl in B; try discriminate; lia.
Qed.

(* popcount when a free run is taken or a used run is given back *)
Lemma popcount_set : forall st a k, st64 st -> 0 <= a -> 0 <= k -> a + k <= 64 ->
  (forall j, a <= j < a + k -> Z.testbit st j = false) -> popcount (set_mask st (bk_mask a k)) = popcount st + k.
Proof.
  intros st a k Hs Ha Hk Hb H. unfold popcount, set_mask.
  rewrite (sumn_ext _ _ (fun j => Z.b2z (Z.testbit st j) + Z.b2z ((a <=? j) && (j <? a + k)))).
  - rewrite sumn_add, sumn_range by lia. lia.
  - intros j Hj. rewrite Z.lor_spec, mask_bits by lia. destruct (Z.leb_spec a j); destruct (Z.ltb_spec j (a + k)); simpl;
      rewrite ?orb_false_r, ?orb_true_r; simpl; try lia. rewrite H by lia. simpl. lia.
Qed.
Lemma popcount_unset : forall st a k, st64 st -> 0 <= a -> 0 <= k -> a + k <= 64 ->
  (forall j, a <= j < a + k -> Z.testbit st j = true) -> popcount (unset_mask st (bk_mask a k)) = popcount st - k.
Proof.
  intros st a k Hs Ha Hk Hb H. assert (P : popcount st = popcount (unset_mask st (bk_mask a k)) + k); [|lia].
  unfold popcount, unset_mask.
  rewrite (sumn_ext _ (fun j => Z.b2z (Z.testbit st j)) (fun j => Z.b2z (Z.testbit (Z.ldiff st (bk_mask a k)) j) + Z.b2z ((a <=? j) && (j <? a + k)))).
  - rewrite sumn_add, sumn_range by lia. lia.
  - intros j Hj. rewrite Z.ldiff_spec, mask_bits by lia. destruct (Z.leb_spec a j); destruct (Z.ltb_spec j (a + k)); simpl;
      rewrite ?andb_false_r, ?andb_true_r; simpl; try lia. rewrite H by lia. simpl. lia.
Qed.

(* ---- alignment of the free-range cache ---- *)
Definition al_inv (u : Z) (m : spamap) : Prop :=
  Forall (fun o => o mod u = 0) (sp_lifo m) /\ Forall (fun e => spe_voff e mod u = 0) (sp_ents m).
Lemma al_insert : forall l x u, Forall (fun e => spe_voff e mod u = 0) l -> spe_voff x mod u = 0 ->
  Forall (fun e => spe_voff e mod u = 0) (insert_spe l x).
Proof.
  intros l x u H Hx. apply Forall_forall. intros e He. apply insert_spe_in in He. destruct He as [->|He]; auto.
  rewrite Forall_forall in H; auto.
Qed.
Lemma add_al : forall m off len a u, al_inv u m -> off mod u = 0 ->
  match spamap_add m off len a with SOk m' | SErr m' => al_inv u m' | SUb => True end.
Proof.
  intros m off len a u [M1 M2] Ho. unfold spamap_add. destruct (spalifo_add m off len) eqn:E.
  { unfold spalifo_add in E. destruct (_ && _); [|discriminate]. injection E as <-. split; [|auto]. constructor; auto. }
  destruct (spamap_merge m off len a) as [r|] eqn:M.
  - unfold spamap_merge in M. destruct (split_at [] (sp_ents m) off) as [before after] eqn:S.
    apply split_at_eq in S. rewrite S in M2. apply Forall_app in M2. destruct M2 as [Mb Ma].
    assert (Mb' : Forall (fun e => spe_voff e mod u = 0) before).
    { rewrite <- (rev_involutive before). apply Forall_rev. auto. }
    destruct before as [|p b].
    + destruct after as [|n c]; [discriminate|]. destruct (Z.eqb_spec (off + len) (spe_voff n)); [|discriminate].
      inversion Ma; subst. destruct a; injection M as <-; (split; [auto|]); cbn [with_ents sp_ents].
      * apply al_insert; auto.
      * simpl. auto.
    + inversion Mb' as [|? ? Hp Hb]; subst. destruct (spe_end p =? off).
      * destruct after as [|n c].
        { injection M as <-. split; auto. cbn [with_ents sp_ents rev]. rewrite !Forall_app. split; auto. split; [apply Forall_rev; auto|].
          constructor; auto. }
        inversion Ma as [|? ? Hn Hc]; subst. cbn [spe_voff spe_len] in M.
        destruct (_ =? _); injection M as <-; (split; [auto|]); cbn [with_ents sp_ents rev]; rewrite !Forall_app;
          (split; [split; [apply Forall_rev; auto|]|auto]); constructor; auto.
      * destruct after as [|n c]; [discriminate|]. destruct (Z.eqb_spec (off + len) (spe_voff n)); [|discriminate].
        inversion Ma; subst. destruct a; injection M as <-; (split; [auto|]); cbn [with_ents sp_ents].
        { apply al_insert; [rewrite Forall_app; auto|]. auto. }
        { rewrite Forall_app; auto. }
  - destruct (_ <? _); [|split; auto]. unfold spamap_insert. destruct a.
    + split; auto. cbn [with_ents sp_ents]. apply al_insert; auto.
    + destruct (maximal_spe (sp_ents m)); [destruct (_ <? _)|]; auto; split; auto.
Qed.
Lemma pop_al : forall m len m' off u, 0 < u -> al_inv u m -> len mod u = 0 ->
  spamap_pop m len = Some (m', off) -> al_inv u m' /\ off mod u = 0.
Proof.
  intros m len m' off u Hu [M1 M2] Hl H. unfold spamap_pop in H. destruct (spalifo_pop m len) as [[m1 o1]|] eqn:E.
  - injection H as <- <-. unfold spalifo_pop in E. destruct (sp_lifo m) as [|x r] eqn:L; [discriminate|]. destruct (_ =? _); [|discriminate].
    injection E as <- <-. inversion M1; subst. split; [split; auto|auto].
  - destruct (sp_ents m) as [|e r]; [discriminate|]. inversion M2 as [|? ? Ee Er]; subst. destruct (_ <? len); [discriminate|].
    destruct (_ <? _); injection H as <- <-; (split; [split; [auto|]|auto]); cbn [with_ents sp_ents]; auto.
    constructor; auto. cbn [spe_voff]. apply mod_add0; auto.
Qed.
Lemma spa_empty_cnt : forall m b, sp_lifo m = [] -> sp_ents m = [] -> cnt m b = 0.
Proof. intros m b H1 H2. unfold cnt. rewrite H1, H2. reflexivity. Qed.
Lemma popcount_def : forall st, popcount st = sumn 64 (fun j => Z.b2z (Z.testbit st j)).
Proof. reflexivity. Qed.
Lemma popcount_0 : popcount 0 = 0.
Proof. reflexivity. Qed.
