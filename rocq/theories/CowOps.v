(* Copy-on-write: every operation on objects keeps the invariant and does what
   the specification says. *)
From Verif Require Import Base AddrModel CowModel CowSpec CowProofs CowWalk CowObj CowCopy.
Open Scope Z_scope.

Definition sameA (T T' : tree) : Prop := forall w, vw T w <> None <-> vw T' w <> None.
Lemma sameA_refl : forall T, sameA T T. Proof. intros T w; tauto. Qed.
Lemma sameA_trans : forall a b c, sameA a b -> sameA b c -> sameA a c.
Proof. intros a b c H1 H2 w. rewrite (H1 w). apply H2. Qed.
Lemma sameW_A : forall T T', sameW T T' -> sameA T T'.
Proof. intros T T' H w. rewrite H. tauto. Qed.

Lemma bool_or_and : forall a b c : bool, (a || b) && c = (a || b) && c. Proof. auto. Qed.

Lemma resolve_cur_ok : forall F T a s raw v r s', Inv F T a s -> good_vad v ->
  resolve_inspect CUR raw v s = (r, s') ->
  Inv F T a s' /\ fr s s' /\ r <> Bad /\ (forall lr, r = Ok lr -> link_at T v = Some (Some (fst lr), snd lr)).
Proof.
  intros F T a s raw v r s' I G H. unfold resolve_inspect, bind at 1 in H.
  destruct (resolve_leaf CUR v s) as [r1 s1] eqn:E1.
  destruct (resolve_leaf_cur _ _ _ _ _ _ _ I G E1) as (I1 & F1 & N1 & O1).
  destruct r1 as [l| |]; [|injection H as <- <-; split; [auto|]; split; [auto|]; split; congruence|congruence].
  unfold bind at 1 in H. destruct (llink_of l v s1) as [r2 s2] eqn:E2.
  destruct (llink_of_ok _ _ _ _ _ _ _ _ (iv_n _ _ _ _ I1) (O1 l eq_refl) E2) as (-> & N2 & O2 & _).
  destruct r2 as [lr| |]; [|injection H as <- <-; split; [auto|]; split; [auto|]; split; congruence|congruence].
  unfold bind, gets in H. cbn [acc is_cow negb orb] in H. injection H as <- <-.
  split; [auto|]. split; [auto|]. split; [congruence|]. intros lr0 Q. injection Q as <-. auto.
Qed.

Definition hurt (raw : bool) (a : fs) (v : vad) : bool := (raw || isdatabk v) && negb (f_own a v).

Lemma spoil_if_false : forall a v, spoil_if false a v = a. Proof. auto. Qed.

Lemma resolve_cow_ok : forall F T a s raw v r s', Inv F T a s -> good_vad v ->
  resolve_inspect COW raw v s = (r, s') ->
  fro s s' /\
  match r with
  | Ok lr => exists T', Inv F T' (spoil_if (hurt raw a v) a v) s' /\ fst lr = lv s /\
             link_at T' v = Some (Some (lv s), snd lr) /\ sameA T T'
  | Er => exists T', Inv F T' (fail a) s' /\ sameA T T'
  | Bad => False
  end.
Proof.
  intros F T a s raw v r s' I G H. unfold resolve_inspect, bind at 1 in H.
  destruct (resolve_leaf COW v s) as [r1 s1] eqn:E1.
  destruct (resolve_leaf_ok F T s COW v r1 s1 (iv_n _ _ _ _ I) (iv_b _ _ _ _ I) (good_range v G) E1) as (T1 & W1 & N1 & O1).
  assert (I1 := Inv_walk _ _ _ _ _ _ _ I W1). assert (F1 := fro_walked _ _ _ _ _ _ W1).
  assert (A1 : sameA T T1) by (destruct W1 as (_ & _ & Q & _); apply sameW_A; auto).
  destruct r1 as [l| |]; [|injection H as <- <-; split; [auto|]; exists T1; split; [apply Inv_fail; auto|auto]|congruence].
  specialize (O1 l eq_refl).
  unfold bind at 1 in H. destruct (llink_of l v s1) as [r2 s2] eqn:E2.
  destruct (llink_of_ok _ _ _ _ _ _ _ _ (iv_n _ _ _ _ I1) O1 E2) as (-> & N2 & O2 & _).
  destruct r2 as [lr| |]; [|injection H as <- <-; split; [auto|]; exists T1; split; [apply Inv_fail; auto|auto]|congruence].
  specialize (O2 lr eq_refl). unfold bind at 1, gets at 1 in H.
  assert (LV : lv s1 = lv s) by (apply (fo_lv _ _ F1)).
  unfold acc in H. cbn [is_cow negb orb] in H. destruct (fst lr =? lv s1) eqn:A.
  - injection H as <- <-. split; [auto|]. exists T1. split; [apply Inv_spoil; auto|]. split; [lia|].
    split; [rewrite O2; f_equal; f_equal; f_equal; lia|auto].
  - unfold bind at 1 in H. destruct (may_fail_cases s1) as [f [Q|Q]]; rewrite Q in H.
    2: { injection H as <- <-. split; [eapply fro_trans; [exact F1|apply fro_fr, fr_oF]|].
         exists T1. split; [apply Inv_fail, Inv_oF; auto|auto]. }
    assert (I2 := Inv_oF _ _ _ _ f I1).
    assert (N3 : node_at T1 (with_oF f s1) COW (lkey v) l) by exact O1.
    assert (F2 : fro s (with_oF f s1)) by (eapply fro_trans; [exact F1|apply fro_fr, fr_oF]).
    unfold bind at 1 in H. destruct (clone_lbk raw v l (with_oF f s1)) as [r3 s3] eqn:E3.
    destruct (clone_lbk_ok _ _ _ _ _ _ _ _ _ I2 G N3 E3) as [F3 P].
    assert (F03 : fro s s3) by (eapply fro_trans; eauto).
    destruct r3 as [u| |]; [|injection H as <- <-; split; [auto|]; exists T1; split; auto|contradiction].
    destruct P as (T2 & I3 & N4 & (rv & LK) & A2).
    destruct (llink_of_ok _ _ _ _ _ _ _ _ (iv_n _ _ _ _ I3) N4 H) as (-> & _ & _ & O4).
    rewrite (O4 _ _ LK). split; [auto|]. exists T2.
    assert (HB : hurt raw a v = (raw || isdatabk v)).
    { unfold hurt. destruct (f_own a v) eqn:OW; [|apply andb_true_r].
      exfalso. pose proof (oi_own _ _ _ _ _ (iv_o _ _ _ _ I1) _ G OW) as (r0 & M). apply vw_link in M.
      rewrite O2 in M. unfold lv in A. assert (fst lr = sb_lv (sb s1)) by congruence. lia. }
    rewrite HB. split; [auto|]. cbn [fst snd]. change (lv (with_oF f s1)) with (lv s1) in *. rewrite <- LV.
    split; [auto|]. split; [auto|]. eapply sameA_trans; [exact A1|]. exact A2.
Qed.

(* ---- re-pointing and changing a cached object ---- *)

Lemma OI_upd : forall W a a' b cv_ sv v c c',
  OI W a b cv_ sv -> get cv_ (vkey v) = Some c -> good_vad v ->
  (forall w, w <> v -> f_cell a' w = f_cell a w /\ f_own a' w = f_own a w) -> f_err a' = f_err a ->
  (v_lv c' = sb_lv b -> W v = Some (Some (sb_lv b), v_riv c')) ->
  (v_dirty c' = true -> mine W b v \/ f_err a = true) ->
  (f_cell a' v <> Free) ->
  (forall d, f_cell a' v = Val d -> v_dat c' = d /\ (stored W sv v d \/ (v_dirty c' = true /\ mine W b v))) ->
  (f_own a' v = true -> mine W b v) ->
  OI W a' b (set cv_ (vkey v) c') sv.
Proof.
  intros W a a' b cv_ sv v c c' [] Hc G HA HE HL HD HF HV HO. constructor.
  - intros k x H. rewrite get_set in H. destruct (keyb_dec (vkey v) k) as [[E <-]|[E Q]]; rewrite E in H; eauto.
  - intros w Gw Hw. destruct (vad_dec w v) as [[_ ->]|[_ N]]; [congruence|]. apply oi_free; auto.
    destruct (HA w N). congruence.
  - intros w d Gw Hw. rewrite get_set. destruct (keyb_dec (vkey v) (vkey w)) as [[E Q]|[E Q]]; rewrite E.
    + apply vkey_inj in Q. subst w. auto.
    + assert (N : w <> v) by congruence. destruct (HA w N) as [H1 _]. rewrite H1 in Hw. exact (oi_val _ _ Gw Hw).
  - intros w x Hw Dw. rewrite HE. rewrite get_set in Hw.
    destruct (keyb_dec (vkey v) (vkey w)) as [[E Q]|[E Q]]; rewrite E in Hw; eauto. injection Hw as <-.
    apply vkey_inj in Q. subst w. auto.
  - intros w x Hw Dw. rewrite get_set in Hw.
    destruct (keyb_dec (vkey v) (vkey w)) as [[E Q]|[E Q]]; rewrite E in Hw; eauto. injection Hw as <-.
    apply vkey_inj in Q. subst w. auto.
  - intros w Gw Hw. destruct (vad_dec w v) as [[_ ->]|[_ N]]; auto. apply oi_own; auto. destruct (HA w N). congruence.
Qed.

Lemma cached_not_free : forall F T a s v c, Inv F T a s -> good_vad v -> get (cV s) (vkey v) = Some c -> f_cell a v <> Free.
Proof.
  intros F T a s v c I G H Q. destruct (oi_keys _ _ _ _ _ (iv_o _ _ _ _ I) _ _ H) as (w & E & _ & N).
  apply vkey_inj in E. subst w. apply N. apply (oi_free _ _ _ _ _ (iv_o _ _ _ _ I)); auto.
Qed.
Lemma cached_alloc : forall F T a s v c, Inv F T a s -> get (cV s) (vkey v) = Some c -> vw T v <> None.
Proof.
  intros F T a s v c I H. destruct (oi_keys _ _ _ _ _ (iv_o _ _ _ _ I) _ _ H) as (w & E & _ & N).
  apply vkey_inj in E. subst w. auto.
Qed.

Lemma upd_llink_ok : forall F T a s v c l r R s', Inv F T a s -> good_vad v ->
  get (cV s) (vkey v) = Some c -> vw T v = Some (Some l, r) -> upd_llink v (l, r) s = (R, s') ->
  R = Ok tt /\ Inv F T a s' /\ fro s s' /\ exists c', get (cV s') (vkey v) = Some c' /\ v_dat c' = v_dat c /\
    v_lv c' = l /\ v_riv c' = r /\ v_dirty c' = v_dirty c.
Proof.
  intros F T a s v c l r R s' I G Hc HW H. unfold upd_llink, bind, get_cv, gets in H. rewrite Hc in H.
  unfold set_cv, mod_st in H. injection H as <- <-. split; auto. cbn [fst snd].
  pose proof (iv_o _ _ _ _ I) as O. split; [|split].
  - eapply Inv_cV; [exact I| |cbn; apply (clv_set _ _ _ _ _ _ I); cbn; eapply vw_lt; eauto|eexists; reflexivity]. cbn. eapply OI_upd; eauto; cbn.
    + intros ->. auto.
    + apply (oi_dirty _ _ _ _ _ O _ _ Hc).
    + eapply cached_not_free; eauto.
    + intros d Hd. pose proof (oi_val _ _ _ _ _ O _ _ G Hd) as V. rewrite Hc in V. auto.
    + apply (oi_own _ _ _ _ _ O); auto.
  - apply fro_cV. intros c0 Q. cbn. congruence.
  - cbn. rewrite get_set_same. eexists; repeat split; auto.
Qed.

Lemma modify_ok : forall F T a s v f c R s', Inv F T a s -> good_vad v ->
  get (cV s) (vkey v) = Some c -> mine (vw T) (sb s) v -> modify v f s = (R, s') ->
  R = Ok tt /\ Inv F T (put_fs a v (Val (f (v_dat c))) true) s' /\ (exists cv_, s' = with_cV cv_ s).
Proof.
  intros F T a s v f c R s' I G Hc HW H. unfold modify, bind, get_cv, gets in H. rewrite Hc in H.
  unfold set_cv, mod_st in H. injection H as <- <-. split; auto. split; [|eexists; reflexivity].
  pose proof (iv_o _ _ _ _ I) as O.
  eapply Inv_cV; [exact I| |cbn; apply (clv_set _ _ _ _ _ _ I); cbn; eapply (iv_clv _ _ _ _ I); eauto|eexists; reflexivity]. cbn. eapply OI_upd; eauto; cbn.
  - intros w N. rewrite !put_other; auto.
  - apply (oi_llink _ _ _ _ _ O _ _ Hc).
  - rewrite put_same. congruence.
  - rewrite put_same. intros d Q. injection Q as <-. auto.
Qed.

(* ---- staging ---- *)

Lemma stage_vnode_cur : forall F T a s v r s', Inv F T a s -> good_vad v -> stage_vnode CUR false v s = (r, s') ->
  Inv F T a s' /\ fro s s' /\ r <> Bad /\ (r = Ok tt -> get (cV s') (vkey v) <> None).
Proof.
  intros F T a s v r s' I G H. unfold stage_vnode, bind at 1 in H. unfold get_cv, gets at 1 in H.
  unfold bind at 1, gets at 1 in H.
  destruct (get (cV s) (vkey v)) as [c|] eqn:E.
  { cbn [acc is_cow negb orb] in H. injection H as <- <-. split; [auto|]. split; [apply fro_refl|]. split; congruence. }
  unfold bind at 1 in H. destruct (require_stable v s) as [r1 s1] eqn:E1.
  destruct (require_stable_ok _ _ _ _ _ _ _ I G E1) as (I1 & F1 & N1 & O1).
  destruct r1 as [[]| |]; [|injection H as <- <-; split; [auto|]; split; [apply fro_fr; auto|]; split; congruence|congruence].
  specialize (O1 eq_refl). unfold bind at 1 in H. destruct (resolve_inspect CUR false v s1) as [r2 s2] eqn:E2.
  destruct (resolve_cur_ok _ _ _ _ _ _ _ _ I1 G E2) as (I2 & F2 & N2 & O3).
  assert (F02 : fr s s2) by (eapply fr_trans; eauto).
  destruct r2 as [lr| |]; [|injection H as <- <-; split; [auto|]; split; [apply fro_fr; auto|]; split; congruence|congruence].
  specialize (O3 lr eq_refl). apply (vw_link2 _ _ _ O1) in O3.
  unfold bind at 1 in H. destruct (may_fail_cases s2) as [f [Q|Q]]; rewrite Q in H.
  2: { injection H as <- <-. split; [apply Inv_oF; auto|].
       split; [eapply fro_trans; [apply fro_fr; exact F02|apply fro_fr, fr_oF]|]. split; congruence. }
  assert (I4 := Inv_oF _ _ _ _ f I2).
  assert (C4 : get (cV (with_oF f s2)) (vkey v) = None) by (cbn; destruct F02; congruence).
  unfold bind at 1, get_cv, gets at 1 in H. rewrite C4 in H. cbv iota in H.
  unfold bind at 1 in H. destruct (load (fst lr) (snd lr) v (with_oF f s2)) as [r5 s5] eqn:E5.
  assert (F04 : fro s (with_oF f s2)) by (eapply fro_trans; [apply fro_fr; exact F02|apply fro_fr, fr_oF]).
  destruct (load_ok _ _ _ _ _ _ E5) as (-> & N5 & _).
  destruct r5 as [d| |]; [|injection H as <- <-; split; [auto|]; split; [auto|]; split; congruence|congruence].
  destruct (load_inv _ _ _ _ _ _ _ _ _ I4 G O3 C4 E5) as [_ V].
  unfold set_cv, mod_st in H. injection H as <- <-.
  split; [|split; [|split; [congruence|]]].
  - eapply Inv_cV; [exact I4| |cbn; apply (clv_set _ _ _ _ _ _ I4); cbn; eapply vw_lt; eauto|eexists; reflexivity]. cbn. apply OI_add; auto.
    + exact (iv_o _ _ _ _ I4).
    + cbn. intros Q0. rewrite O3, Q0. reflexivity.
  - eapply fro_trans; [exact F04|]. apply (fro_cV (with_oF f s2)). intros c0 Hc. congruence.
  - intros _. cbn. rewrite get_set_same. congruence.
Qed.

Lemma stage_vnode_cow : forall F T a s raw v r s', Inv F T a s -> good_vad v ->
  (raw = true -> forall d, f_cell a v <> Val d) ->
  stage_vnode COW raw v s = (r, s') ->
  fro s s' /\
  match r with
  | Ok _ => exists T' c, Inv F T' (spoil_if (hurt raw a v) a v) s' /\ get (cV s') (vkey v) = Some c /\
            mine (vw T') (sb s') v /\ sameA T T'
  | Er => exists T', Inv F T' (fail (spoil_if (hurt raw a v) a v)) s' /\ sameA T T'
  | Bad => False
  end.
Proof.
  intros F T a s raw v r s' I G HR H. unfold stage_vnode, bind at 1 in H. unfold get_cv, gets at 1 in H.
  unfold bind at 1, gets at 1 in H. set (a1 := spoil_if (hurt raw a v) a v) in *.
  assert (FA : forall T0 s0, Inv F T0 (fail a) s0 -> Inv F T0 (fail a1) s0).
  { intros T0 s0 I0. eapply Inv_weaken; [exact I0| | |auto].
    - intros w _. unfold a1. cbn. rewrite spoil_if_cell. destruct (_ && _); [apply le_spoil|right; auto].
    - intros w. unfold a1. cbn. rewrite spoil_if_own. auto. }
  assert (FI : forall T0 s0, Inv F T0 a s0 -> Inv F T0 (fail a1) s0) by (intros; apply FA, Inv_fail; auto).
  destruct (get (cV s) (vkey v)) as [c|] eqn:E.
  - unfold acc in H. cbn [is_cow negb orb] in H. destruct (v_lv c =? lv s) eqn:A.
    + injection H as <- <-. split; [apply fro_refl|]. exists T, c. split; [apply Inv_spoil; auto|].
      split; [auto|]. split; [|apply sameA_refl]. exists (v_riv c).
      apply (oi_llink _ _ _ _ _ (iv_o _ _ _ _ I) _ _ E). unfold lv in A. lia.
    + unfold bind at 1 in H. destruct (resolve_inspect COW raw v s) as [r1 s1] eqn:E1.
      destruct (resolve_cow_ok _ _ _ _ _ _ _ _ I G E1) as [F1 P].
      destruct r1 as [lr| |]; [|injection H as <- <-; split; [auto|]; destruct P as (T1 & P & Q); exists T1; auto|contradiction].
      destruct P as (T1 & I1 & L1 & L2 & A1). destruct (fo_cV _ _ F1 _ _ E) as (c1 & C1 & D1).
      assert (V1 : vw T1 v = Some (Some (lv s), snd lr)).
      { apply vw_link2; auto. apply A1. eapply cached_alloc; eauto. }
      destruct lr as [l0 r0]. cbn [fst snd] in *. subst l0.
      destruct (upd_llink_ok _ _ _ _ _ _ _ _ _ _ I1 G C1 V1 H) as (-> & I2 & F2 & c2 & C2 & _).
      split; [eapply fro_trans; eauto|]. exists T1, c2. split; [auto|]. split; [auto|]. split; [|auto].
      exists r0. rewrite V1. f_equal. f_equal. f_equal. fold (lv s'). rewrite (fo_lv _ _ F2), (fo_lv _ _ F1). auto.
  - unfold bind at 1 in H. destruct (require_stable v s) as [r1 s1] eqn:E1.
    destruct (require_stable_ok _ _ _ _ _ _ _ I G E1) as (I1 & F1 & N1 & O1).
    destruct r1 as [[]| |]; [|injection H as <- <-; split; [apply fro_fr; auto|]; exists T; split; [auto|apply sameA_refl]|congruence].
    specialize (O1 eq_refl). unfold bind at 1 in H. destruct (resolve_inspect COW raw v s1) as [r2 s2] eqn:E2.
    destruct (resolve_cow_ok _ _ _ _ _ _ _ _ I1 G E2) as [F2 P]. fold a1 in P.
    assert (F02 : fro s s2) by (eapply fro_trans; [apply fro_fr|]; eauto).
    destruct r2 as [lr| |]; [|injection H as <- <-; split; [auto|]; destruct P as (T1 & P & Q); exists T1; auto|contradiction].
    destruct P as (T1 & I2 & L1 & L2 & A1).
    assert (V1 : vw T1 v = Some (Some (lv s1), snd lr)) by (apply vw_link2; auto; apply A1; auto).
    unfold bind at 1 in H. destruct (may_fail_cases s2) as [f [Q|Q]]; rewrite Q in H.
    2: { injection H as <- <-. split; [eapply fro_trans; [exact F02|apply fro_fr, fr_oF]|].
         exists T1. split; [apply Inv_fail, Inv_oF; auto|auto]. }
    assert (I4 := Inv_oF _ _ _ _ f I2).
    assert (F04 : fro s (with_oF f s2)) by (eapply fro_trans; [exact F02|apply fro_fr, fr_oF]).
    assert (LV2 : lv s2 = lv s1) by (apply (fo_lv _ _ F2)).
    unfold bind at 1, get_cv, gets at 1 in H. change (cV (with_oF f s2)) with (cV s2) in H.
    destruct lr as [l0 r0]. cbn [fst snd] in *. subst l0.
    destruct (get (cV s2) (vkey v)) as [c2|] eqn:C2.
    + destruct (upd_llink_ok _ _ _ _ _ c2 _ _ _ _ I4 G C2 V1 H) as (-> & I5 & F5 & c3 & C3 & _).
      split; [eapply fro_trans; eauto|]. exists T1, c3. split; [auto|]. split; [auto|]. split; [|auto].
      exists r0. rewrite V1. f_equal. f_equal. f_equal. fold (lv s'). rewrite (fo_lv _ _ F5). symmetry. exact LV2.
    + assert (FIN : forall d, (forall d', f_cell a1 v = Val d' -> d = d') ->
         set_cv v (mkCv d (lv s1) r0 false) (with_oF f s2) = (r, s') ->
         fro s s' /\ match r with Ok _ => exists T' c, Inv F T' a1 s' /\ get (cV s') (vkey v) = Some c /\
            mine (vw T') (sb s') v /\ sameA T T' | Er => exists T', Inv F T' (fail a1) s' /\ sameA T T' | Bad => False end).
      { intros d V H'. unfold set_cv, mod_st in H'. injection H' as <- <-.
        split. { eapply fro_trans; [exact F04|]. apply (fro_cV (with_oF f s2)). intros c0 Hc. cbn in Hc. congruence. }
        eexists T1, _. split; [|split; [|split; [|auto]]].
        - eapply Inv_cV; [exact I4| |cbn; apply (clv_set _ _ _ _ _ _ I4); cbn; eapply vw_lt; eauto|eexists; reflexivity]. cbn. apply OI_add; auto.
          + exact (iv_o _ _ _ _ I4).
          + congruence.
          + cbn. intros Q0. rewrite V1. rewrite <- Q0. reflexivity.
        - cbn. apply get_set_same.
        - exists r0. rewrite V1. f_equal. f_equal. f_equal. cbn. symmetry. exact LV2. }
      unfold bind at 1 in H. destruct raw.
      * unfold ret in H. apply (FIN []); auto. intros d' Q2. exfalso.
        unfold a1 in Q2. rewrite spoil_if_cell in Q2. apply (HR eq_refl d').
        destruct (_ && _); auto. destruct (f_cell a v); cbn in Q2; congruence.
      * destruct (load (lv s1) r0 v (with_oF f s2)) as [r5 s5] eqn:E5.
        destruct (load_ok _ _ _ _ _ _ E5) as (-> & N5 & _).
        destruct r5 as [d| |]; [|injection H as <- <-; split; [auto|]; exists T1; split; [apply Inv_fail; auto|auto]|congruence].
        destruct (load_inv _ _ _ _ _ _ _ _ _ I4 G V1 C2 E5) as [_ V]. apply (FIN d); auto.
Qed.

(* ---- read and write ---- *)

Lemma op_read_ok : forall F T a s v r s', Inv F T a s -> good_vad v -> op_read v s = (r, s') ->
  Inv F T a s' /\ fro s s' /\ r <> Bad /\ (forall d, r = Ok d -> f_cell a v = Any \/ f_cell a v = Val d).
Proof.
  intros F T a s v r s' I G H. unfold op_read, bind at 1 in H.
  destruct (stage_vnode CUR false v s) as [r1 s1] eqn:E1.
  destruct (stage_vnode_cur _ _ _ _ _ _ _ I G E1) as (I1 & F1 & N1 & O1).
  destruct r1 as [[]| |]; [|injection H as <- <-; split; [auto|]; split; [auto|]; split; congruence|congruence].
  specialize (O1 eq_refl). unfold bind, get_cv, gets in H.
  destruct (get (cV s1) (vkey v)) as [c|] eqn:E; [|congruence]. injection H as <- <-.
  split; [auto|]. split; [auto|]. split; [congruence|]. intros d Q. injection Q as <-.
  destruct (f_cell a v) as [| |d'] eqn:C; auto.
  - exfalso. eapply cached_not_free; eauto.
  - right. pose proof (oi_val _ _ _ _ _ (iv_o _ _ _ _ I1) _ _ G C) as V. rewrite E in V. destruct V as [V _]. congruence.
Qed.

(* What op_write leaves, before the specification looks at it. *)
Lemma op_write_ok : forall F T a s rm v f r s', Inv F T a s -> good_vad v -> op_write rm v f s = (r, s') ->
  match r with
  | Ok _ => exists T' d, Inv F T' (put_fs a v (Val (f d)) true) s' /\ f_cell a v <> Free /\
            (forall d0, f_cell a v = Val d0 -> lossy a v = false -> d = d0) /\
            (forall c, get (cV s) (vkey v) = Some c -> d = v_dat c)
  | Er => exists T', Inv F T' (fail (spoil_if (lossy a v) a v)) s'
  | Bad => False
  end.
Proof.
  intros F T a s rm v f r s' I G H. unfold op_write, bind at 1 in H.
  assert (HU : forall b, hurt false b v = lossy b v) by reflexivity.
  set (a1 := spoil_if (lossy a v) a v) in *.
  assert (X : exists r1 s1, (if rm then resolve_inspect COW false v;;; may_fail else ret tt) s = (r1, s1) /\ fro s s1 /\
    match r1 with Ok _ => exists T1, Inv F T1 a1 s1 | Er => exists T1, Inv F T1 (fail a1) s1 | Bad => False end).
  { destruct rm.
    - unfold bind. destruct (resolve_inspect COW false v s) as [r1 s1] eqn:E1.
      destruct (resolve_cow_ok _ _ _ _ _ _ _ _ I G E1) as [F1 P]. rewrite HU in P. fold a1 in P.
      destruct r1 as [lr| |]; [| |contradiction].
      + destruct P as (T1 & I1 & _). destruct (may_fail_cases s1) as [g [Q|Q]]; rewrite Q; do 2 eexists;
        (split; [reflexivity|]); (split; [eapply fro_trans; [exact F1|apply fro_fr, fr_oF]|]); exists T1.
        * apply Inv_oF; auto.
        * apply Inv_fail, Inv_oF; auto.
      + do 2 eexists. split; [reflexivity|]. split; auto. destruct P as (T1 & P & _). exists T1.
        eapply Inv_weaken; [exact P| | |auto].
        * intros w _. unfold a1. cbn. rewrite spoil_if_cell. destruct (_ && _); [apply le_spoil|right; auto].
        * intros w. unfold a1. cbn. rewrite spoil_if_own. auto.
    - do 2 eexists. split; [reflexivity|]. split; [apply fro_refl|]. exists T. unfold a1. apply Inv_spoil; auto. }
  destruct X as (r1 & s1 & E1 & F1 & P). rewrite E1 in H.
  destruct r1 as [u| |]; [|injection H as <- <-; auto|contradiction]. destruct P as (T1 & I1).
  unfold bind at 1 in H. destruct (stage_vnode COW false v s1) as [r2 s2] eqn:E2.
  assert (LE : lossy a1 v = lossy a v) by (unfold lossy, a1; rewrite spoil_if_own; auto).
  assert (NR : false = true -> forall d, f_cell a1 v <> Val d) by discriminate.
  destruct (stage_vnode_cow _ _ _ _ _ _ _ _ I1 G NR E2) as [F2 P]. rewrite HU in P.
  assert (I1a : forall T0 s0, Inv F T0 (spoil_if (lossy a1 v) a1 v) s0 -> Inv F T0 a1 s0).
  { intros T0 s0 J. eapply Inv_weaken; [exact J| | |].
    - intros w _. rewrite spoil_if_cell, LE.
      destruct (lossy a v && vad_eqb w v) eqn:Q; [|right; auto].
      unfold a1. rewrite spoil_if_cell, Q. right. destruct (f_cell a w); auto.
    - intros w. rewrite spoil_if_own. auto.
    - rewrite spoil_if_err. auto. }
  destruct r2 as [u2| |]; [|injection H as <- <-; destruct P as (T2 & P & _); exists T2|contradiction].
  - destruct P as (T2 & c & I2 & C2 & M2 & _). apply I1a in I2.
    destruct (modify_ok _ _ _ _ _ _ _ _ _ I2 G C2 M2 H) as (-> & I3 & _).
    exists T2, (v_dat c). split; [|split; [|split]].
    + eapply Inv_weaken; [exact I3| | |].
      * intros w _. right. cbn. destruct (vad_dec w v) as [[_ ->]|[_ N]]; [rewrite !put_same; auto|].
        rewrite !put_other by auto. unfold a1. rewrite spoil_if_cell.
        destruct (vad_dec w v) as [[Q1 Q]|[-> _]]; [congruence|]. rewrite andb_false_r. auto.
      * intros w. cbn. destruct (vad_dec w v) as [[_ ->]|[_ N]]; [rewrite !put_same; auto|].
        rewrite !put_other by auto. unfold a1. rewrite spoil_if_own. auto.
      * cbn. unfold a1. rewrite spoil_if_err. auto.
    + intros Q. eapply (cached_not_free _ _ _ _ _ _ I2 G C2). unfold a1. rewrite spoil_if_cell, Q. destruct (_ && _); auto.
    + intros d0 Hd L. unfold a1 in I2. rewrite L in I2. cbn in I2.
      pose proof (oi_val _ _ _ _ _ (iv_o _ _ _ _ I2) _ _ G Hd) as V. rewrite C2 in V. destruct V; auto.
    + intros c0 H0. destruct (fo_cV _ _ F1 _ _ H0) as (c1 & C1 & D1). destruct (fo_cV _ _ F2 _ _ C1) as (c2' & C2' & D2).
      congruence.
  - eapply Inv_weaken; [exact P| | |auto].
    + intros w _. right. cbn. rewrite spoil_if_cell, LE.
      destruct (lossy a v && vad_eqb w v) eqn:Q; [|auto].
      unfold a1. rewrite spoil_if_cell, Q. destruct (f_cell a w); auto.
    + intros w. cbn. rewrite spoil_if_own. auto.
Qed.
