(* Arithmetic of the space-map tree. *)
From Verif Require Import Base AddrModel MapModel SpmapModel.

(* the span of a map n levels above the leaves *)
Definition spn (n : nat) : Z := 2 ^ 24 * 256 ^ Z.of_nat n.
Definition hgt (n : nat) : Z := Z.of_nat n + H_SPLEAF.

Lemma spn_pos : forall n, 0 < spn n.
Proof. intros. unfold spn. pose proof (Z.pow_pos_nonneg 256 (Z.of_nat n)). lia. Qed.
Lemma spn_S : forall n, spn (S n) = 256 * spn n.
Proof. intros. unfold spn. rewrite Nat2Z.inj_succ, Z.pow_succ_r by lia. lia. Qed.
Lemma spn_4 : spn 4 = 2 ^ 56. Proof. reflexivity. Qed.
Lemma spn_le : forall n, (n <= 4)%nat -> spn n <= 2 ^ 56.
Proof.
  intros n H. unfold spn.
  assert (256 ^ Z.of_nat n <= 256 ^ 4) by (apply Z.pow_le_mono_r; lia).
  change (2 ^ 56) with (2 ^ 24 * 256 ^ 4). lia.
Qed.
Lemma span_hgt : forall n, (n <= 4)%nat -> space_span (hgt n) = spn n.
Proof. intros n H. do 5 (destruct n as [|n]; [reflexivity|]). lia. Qed.
Lemma hgt_S : forall n, hgt (S n) - 1 = hgt n.
Proof. intros. unfold hgt. lia. Qed.

Lemma align_eq : forall v a, 0 <= v -> 0 < a -> off_align v a = v / a * a.
Proof. intros. unfold off_align. rewrite Z.quot_div_nonneg by lia. reflexivity. Qed.

(* the range of a map *)
Definition rng (n : nat) (v : Z) : vrange :=
  mkVrange (v / spn n * spn n) (v / spn n * spn n + spn n) (spn n) (hgt n).

Lemma of_spmap_eq : forall n v, (n <= 4)%nat -> 0 <= v -> vrange_of_spmap (hgt n) v = rng n v.
Proof.
  intros n v Hn Hv. pose proof (spn_pos n) as Hp.
  unfold vrange_of_spmap, vrange_setup, rng, off_next. rewrite span_hgt by exact Hn.
  rewrite align_eq by lia.
  assert (0 <= v / spn n) by (apply Z.div_pos; lia).
  rewrite align_eq by nia.
  replace ((v / spn n * spn n + spn n) / spn n) with (v / spn n + 1)
    by (rewrite Z.div_add_l by lia; rewrite Z.div_same by lia; reflexivity).
  f_equal; lia.
Qed.

Lemma rng_within : forall n v w, vrange_within (rng n v) w = true <-> w / spn n = v / spn n.
Proof.
  intros n v w. pose proof (spn_pos n) as Hp. unfold vrange_within, rng. cbn [vr_beg vr_end].
  rewrite andb_true_iff, Z.leb_le, Z.ltb_lt. generalize dependent (spn n). intros a Ha.
  split; intros H.
  - assert (E : w = a * (v / a) + (w - a * (v / a))) by lia.
    apply Z.div_unique with (r := w - a * (v / a)) in E; lia.
  - pose proof (Z.div_mod w a ltac:(lia)). pose proof (Z.mod_pos_bound w a Ha). nia.
Qed.

Lemma div_spn_S : forall n v, v / spn (S n) = v / spn n / 256.
Proof.
  intros. rewrite spn_S. rewrite (Z.mul_comm 256). pose proof (spn_pos n).
  rewrite Z.div_div by lia. reflexivity.
Qed.

(* the slot is the position of the child among the 256 children *)
Lemma slot_eq : forall n v w, (n < 4)%nat -> 0 <= w < 2 ^ 55 -> w / spn (S n) = v / spn (S n) ->
  slot_of (rng (S n) v) w = Some ((w / spn n) mod 256).
Proof.
  intros n v w Hn Hw E. unfold slot_of, rng. cbn [vr_beg vr_len].
  pose proof (spn_pos n) as Hp. pose proof (spn_pos (S n)) as Hq.
  rewrite <- E.
  assert (Hr : w - w / spn (S n) * spn (S n) = w mod spn (S n)).
  { pose proof (Z.div_mod w (spn (S n)) ltac:(lia)). lia. }
  rewrite Hr. pose proof (Z.mod_pos_bound w (spn (S n)) Hq) as B.
  assert (L : w mod spn (S n) <= w) by (apply Z.mod_le; lia).
  change NCHILDS with 256.
  destruct (w mod spn (S n) * 256 <? - 2 ^ 63) eqn:E1; [lia|].
  destruct (2 ^ 63 <=? w mod spn (S n) * 256) eqn:E2; [lia|]. cbn [orb].
  destruct (spn (S n) =? 0) eqn:E3; [lia|].
  unfold u64. rewrite Z.mod_small by lia.
  replace (w mod spn (S n) * 256 / spn (S n)) with (w mod spn (S n) / spn n)
    by (generalize (w mod spn (S n)); intros z; rewrite (spn_S n), (Z.mul_comm 256 (spn n)), Z.div_mul_cancel_r by lia; reflexivity).
  assert (V : w mod spn (S n) / spn n = (w / spn n) mod 256).
  { rewrite (spn_S n), (Z.mul_comm 256), Z.rem_mul_r by lia.
    rewrite Z.add_comm, Z.mul_comm, Z.div_add_l by lia.
    rewrite (Z.div_small (w mod spn n)) by (apply Z.mod_pos_bound; lia). lia. }
  rewrite V. pose proof (Z.mod_pos_bound (w / spn n) 256 ltac:(lia)).
  destruct ((w / spn n) mod 256 <? 256) eqn:E4; [reflexivity|lia].
Qed.

(* stored ranges *)
Lemma htox_ok : forall n v, (n <= 4)%nat -> 0 <= v < 2 ^ 58 ->
  exists b, vrange128_htox (rng n v) = Some b /\ zlen b = 16 /\ vrange128_xtoh b = Some (rng n v).
Proof.
  intros n v Hn Hv. pose proof (spn_pos n) as Hp. pose proof (spn_le n Hn) as Hl.
  unfold vrange128_htox, rng. cbn [vr_len vr_beg vr_end vr_height].
  assert (Hh : 2 <= hgt n <= 6) by (unfold hgt, H_SPLEAF; lia).
  destruct (spn n <=? 2 ^ 58) eqn:E1; [|lia].
  destruct (hgt n <=? H_SUPER) eqn:E2; [|unfold H_SUPER in *; lia]. cbn [andb].
  eexists. split; [reflexivity|]. split; [rewrite zlen_app, !zlen_le_enc; reflexivity|].
  unfold vrange128_xtoh.
  rewrite ztake_app_l by (rewrite zlen_le_enc; lia).
  rewrite ztake_all by (rewrite zlen_le_enc; lia).
  rewrite zdrop_app_r by (rewrite zlen_le_enc; lia). rewrite zlen_le_enc.
  rewrite (zdrop_0 _ _ _) by lia.
  set (B := v / spn n * spn n).
  assert (HB : 0 <= B <= v).
  { unfold B. assert (0 <= v / spn n) by (apply Z.div_pos; lia).
    pose proof (Z.mul_div_le v (spn n) Hp). nia. }
  clearbody B. set (L := spn n) in *. clearbody L.
  assert (Eu : u64 B = B) by (unfold u64; apply Z.mod_small; lia).
  rewrite Eu. rewrite (le_dec_enc 8 B) by (change (256 ^ Z.of_nat 8) with (2 ^ 64); lia).
  assert (Es : s64 B = B).
  { unfold s64. rewrite Z.mod_small by lia. destruct (B <? 2 ^ 63) eqn:E; lia. }
  rewrite Es.
  assert (Eh : Z.land (hgt n) 15 = hgt n).
  { change 15 with (Z.ones 4). rewrite Z.land_ones by lia. apply Z.mod_small. lia. }
  rewrite Eh.
  assert (El : u64 (Z.shiftl (L) 4) = L * 16).
  { rewrite Z.shiftl_mul_pow2 by lia. unfold u64. rewrite Z.mod_small by lia. reflexivity. }
  rewrite El.
  assert (Eor : Z.lor (L * 16) (hgt n) = L * 16 + hgt n).
  { replace (L * 16) with (Z.shiftl (L) 4) by (rewrite Z.shiftl_mul_pow2 by lia; reflexivity).
    symmetry. rewrite Z.add_nocarry_lxor; [apply Z.lxor_lor|].
    - apply Z.bits_inj'. intros k Hk. rewrite Z.land_spec, Z.bits_0.
      destruct (Z.ltb_spec k 4).
      + rewrite Z.shiftl_spec_low by lia. reflexivity.
      + rewrite <- Eh. change 15 with (Z.ones 4). rewrite Z.land_spec.
        rewrite Z.ones_spec_high by lia. rewrite !andb_false_r. reflexivity.
    - apply Z.bits_inj'. intros k Hk. rewrite Z.land_spec, Z.bits_0.
      destruct (Z.ltb_spec k 4).
      + rewrite Z.shiftl_spec_low by lia. reflexivity.
      + rewrite <- Eh. change 15 with (Z.ones 4). rewrite Z.land_spec.
        rewrite Z.ones_spec_high by lia. rewrite !andb_false_r. reflexivity. }
  rewrite Eor.
  rewrite le_dec_enc by (change (256 ^ Z.of_nat 8) with (2 ^ 64); lia).
  assert (Sr : Z.shiftr (L * 16 + hgt n) 4 = L).
  { rewrite Z.shiftr_div_pow2 by lia. change (2 ^ 4) with 16. rewrite Z.div_add_l by lia.
    rewrite Z.div_small by lia. lia. }
  assert (Sl : Z.land (L * 16 + hgt n) 15 = hgt n).
  { change 15 with (Z.ones 4). rewrite Z.land_ones by lia. change (2 ^ 4) with 16.
    rewrite Z.add_comm, Z_mod_plus_full. apply Z.mod_small. lia. }
  rewrite Sr, Sl, E1, E2. cbn [andb]. unfold vrange_setup. f_equal. f_equal. lia.
Qed.

Lemma new_hdr_ok : forall n v, (n <= 4)%nat -> 0 <= v < 2 ^ 58 ->
  vrange128_xtoh (new_hdr (hgt n) v) = Some (rng n v).
Proof.
  intros n v Hn Hv. unfold new_hdr. rewrite of_spmap_eq by lia.
  destruct (htox_ok n v Hn Hv) as [b [-> [_ H]]]. exact H.
Qed.

(* a tree whose maps hold the ranges of their places: i is the index of the map at its level *)
Inductive wf : nat -> Z -> smap -> Prop :=
| wf_leaf : forall i b x v, 0 <= v -> v / spn 0 = i -> vrange128_xtoh b = Some (rng 0 v) -> wf 0 i (SLeaf b x)
| wf_node : forall n i b subs v, 0 <= v -> v / spn (S n) = i -> vrange128_xtoh b = Some (rng (S n) v) ->
    (forall s c, subs s = Some c -> wf n (256 * i + s) c) -> wf (S n) i (SNode b subs).

Lemma wf_new : forall n v x, (n <= 4)%nat -> 0 <= v < 2 ^ 58 -> wf n (v / spn n) (new_map n v x).
Proof.
  intros n v x Hn Hv. unfold new_map. fold (hgt n). pose proof (new_hdr_ok n v Hn Hv).
  destruct n as [|n]; [eapply wf_leaf|eapply wf_node]; try eassumption; try lia; try reflexivity.
  intros s c [=].
Qed.

(* what an offset is led to *)
Lemma find_new : forall n v w x, (0 < n <= 4)%nat -> 0 <= v < 2 ^ 58 -> find (new_map n v x) w = None.
Proof.
  intros n v w x Hn Hv. destruct n as [|n]; [lia|]. unfold new_map. cbn [find].
  destruct (vrange128_xtoh _); [|reflexivity].
  destruct (vrange_within _ _); [|reflexivity]. destruct (slot_of _ _); reflexivity.
Qed.

Lemma find_out : forall n i m w, wf n i m -> (0 < n)%nat -> w / spn n <> i -> find m w = None.
Proof.
  intros n i m w H Hn Hw. destruct H as [i b x v|n i b subs v Hv Hi Hb Hs]; [lia|].
  cbn [find]. rewrite Hb. destruct (vrange_within (rng (S n) v) w) eqn:E; [|reflexivity].
  apply rng_within in E. congruence.
Qed.

Lemma find_covers : forall n i m w r x, wf n i m -> (n <= 4)%nat -> 0 <= w < 2 ^ 55 -> w / spn n = i ->
  find m w = Some (r, x) -> r = rng 0 w.
Proof.
  induction n as [|n IH]; intros i m w r x H Hn Hw Hi F; inversion H as [i' b x' v Hv Hi' Hb|n' i' b subs v Hv Hi' Hb Hs]; subst.
  - cbn [find] in F. rewrite Hb in F. injection F as <- <-. unfold rng. congruence.
  - cbn [find] in F. rewrite Hb in F.
    assert (E : vrange_within (rng (S n) v) w = true) by (apply rng_within; lia).
    rewrite E in F. rewrite slot_eq in F by lia.
    destruct (subs ((w / spn n) mod 256)) as [c|] eqn:Ec; [|discriminate].
    apply IH with (i := w / spn n) (m := c) (x := x); try lia; [|exact F].
    specialize (Hs _ _ Ec). rewrite div_spn_S in Hs.
    rewrite <- Z.div_mod in Hs by lia. exact Hs.
Qed.

Lemma idx_split : forall n w, 256 * (w / spn (S n)) + (w / spn n) mod 256 = w / spn n.
Proof. intros. rewrite div_spn_S. pose proof (Z.div_mod (w / spn n) 256). lia. Qed.

Lemma require_ok : forall n i m v x, wf n i m -> (n <= 4)%nat -> 0 <= v < 2 ^ 55 -> v / spn n = i ->
  exists m', require n m v x = Some m' /\ wf n i m' /\
  forall w, 0 <= w < 2 ^ 55 -> w / spn n = i ->
    find m' w = if w / spn 0 =? v / spn 0 then Some (rng 0 v, x) else find m w.
Proof.
  induction n as [|n IH]; intros i m v x H Hn Hv Hi; inversion H as [i' b x' u Hu Hi' Hb|n' i' b subs u Hu Hi' Hb Hs]; subst.
  - exists (SLeaf b x). cbn [require]. split; [reflexivity|]. split; [eapply wf_leaf; eassumption|].
    intros w Hw E. rewrite E, Z.eqb_refl. cbn [find]. rewrite Hb. f_equal. f_equal. unfold rng. congruence.
  - cbn [require]. rewrite Hb.
    assert (E : vrange_within (rng (S n) u) v = true) by (apply rng_within; lia).
    rewrite E. rewrite slot_eq by lia.
    assert (Hn4 : (n < 4)%nat) by lia. assert (Hv58 : 0 <= v < 2 ^ 58) by lia.
    set (s := (v / spn n) mod 256) in *.
    assert (Hidx : 256 * (v / spn (S n)) + s = v / spn n).
    { unfold s. rewrite div_spn_S. pose proof (Z.div_mod (v / spn n) 256). lia. }
    set (c := match subs s with Some c => c | None => new_map n v x end).
    assert (Wc : wf n (v / spn n) c).
    { unfold c. destruct (subs s) as [c0|] eqn:Es.
      - specialize (Hs _ _ Es). rewrite Hidx in Hs. exact Hs.
      - apply wf_new; lia. }
    destruct (IH (v / spn n) c v x Wc (Nat.lt_le_incl _ _ Hn4) Hv eq_refl) as [c' [R [W F]]].
    rewrite R. eexists. split; [reflexivity|]. split.
    + eapply wf_node with (v := u); try eassumption.
      intros s0 c0. unfold fset. destruct (Z.eqb_spec s0 s) as [->|N].
      * intros [= <-]. rewrite Hidx. exact W.
      * apply Hs.
    + intros w Hw Ew. cbn [find]. rewrite Hb.
      assert (E2 : vrange_within (rng (S n) u) w = true) by (apply rng_within; congruence).
      rewrite E2. assert (Hwu : w / spn (S n) = u / spn (S n)) by congruence.
      rewrite (slot_eq n u w Hn4 Hw Hwu). pose proof (idx_split n w) as Hw2.
      assert (Leaf : forall a b, a / spn 0 = b / spn 0 -> a / spn n = b / spn n).
      { intros a b0 Hab. clear - Hab Hn.
        assert (Hk : spn n = spn 0 * 256 ^ Z.of_nat n).
        { unfold spn. change (256 ^ Z.of_nat 0) with 1. lia. }
        pose proof (spn_pos 0). assert (0 < 256 ^ Z.of_nat n) by (apply Z.pow_pos_nonneg; lia).
        rewrite Hk, <- !Z.div_div by lia. congruence. }
      unfold fset. destruct (Z.eqb_spec ((w / spn n) mod 256) s) as [Es|N].
      * assert (Ewn : w / spn n = v / spn n) by (rewrite <- Hw2, <- Hidx, Es, Ew; reflexivity).
        rewrite (F w Hw Ewn).
        destruct (w / spn 0 =? v / spn 0) eqn:E0; [reflexivity|].
        rewrite Es. unfold c. destruct (subs s) as [c0|] eqn:Esub; [reflexivity|].
        destruct n as [|n].
        -- exfalso. apply Z.eqb_neq in E0. apply E0. exact Ewn.
        -- apply find_new; [clear - Hn4; lia|exact Hv58].
      * destruct (Z.eqb_spec (w / spn 0) (v / spn 0)) as [E0|E0]; [|reflexivity].
        exfalso. apply N. unfold s. rewrite (Leaf _ _ E0). reflexivity.
Qed.
