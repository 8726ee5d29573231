(* Copy-on-write: allocating and freeing, writing out, forgetting, remounting and
   taking a snapshot keep the invariant. *)
From Verif Require Import Base AddrModel CowModel CowSpec CowProofs CowWalk CowObj CowCopy CowOps.
Open Scope Z_scope.

(* The objects seen change only for those the new view says so. *)
Lemma OI_view : forall W W' a b cv_ sv, OI W a b cv_ sv -> (forall v, good_vad v -> W' v = W v) ->
  OI W' a b cv_ sv.
Proof.
  intros W W' a b cv_ sv [] E. constructor.
  - intros k c H. destruct (oi_keys _ _ H) as (v & A & B & C). exists v. rewrite E; auto.
  - intros v G H. rewrite E; auto.
  - intros v d G H. specialize (oi_val _ _ G H). destruct (get cv_ (vkey v)).
    + destruct oi_val as [A [B|[B C]]]; split; auto; [left; eapply (stored_W W); eauto|right; split; auto; eapply (mine_W W); eauto].
    + eapply (stored_W W); eauto.
  - intros v c H D. destruct (oi_keys _ _ H) as (v0 & A & B & C). apply vkey_inj in A. subst v0.
    destruct (oi_dirty _ _ H D); auto. left. eapply (mine_W W); eauto.
  - intros v c H D. destruct (oi_keys _ _ H) as (v0 & A & B & C). apply vkey_inj in A. subst v0. rewrite E; auto.
  - intros v G H. eapply (mine_W W); eauto.
Qed.

Lemma node_at_fr : forall T s s' m k l, node_at T s m k l -> fr s s' -> node_at T s' m k l.
Proof.
  intros T s s' m k l (x & A & B & C & D) []. exists x. repeat split; auto. intros Q. rewrite (D Q). auto.
Qed.

(* Changing one's own leaf. *)
Lemma upd_leaf : forall F T s v leaf x c n', NIs F T s -> node_at T s COW (lkey v) leaf ->
  T (lkey v) = Some x -> get (cU s) (leaf :: lkey v) = Some c ->
  n_main n' = n_main (t_n x) -> n_kid n' = n_kid (t_n x) ->
  NIs F (tset T (lkey v) (mkTn (t_l x) (t_r x) n')) (set_cu leaf (lkey v) (mkCu n' (u_riv c) true) s).
Proof.
  intros F T s v leaf x c n' I (y & A & B & _ & D) X C M K. assert (y = x) by congruence. subst y.
  assert (LL : leaf = lv s) by auto.
  unfold NIs, set_cu in *. cbn [nx sb cU uam sU with_cU]. unfold lkey, ukey in *.
  change H_SPLEAF with 2 in *. rewrite <- B. apply NI_upd with (c := c); auto.
  - rewrite B. exact LL.
  - rewrite B. exact C.
  - congruence.
  - intros _. unfold leafok. rewrite K. eapply (ni_leaf _ _ _ _ _ _ _ I); eauto.
  - rewrite M. eapply (ni_main _ _ _ _ _ _ _ I); eauto. rewrite B. exact LL.
Qed.

Lemma lkey_fst : forall v w, lkey v = lkey w -> fst v = fst w.
Proof. unfold lkey, ukey. intros. congruence. Qed.

(* ---- allocating ---- *)

Lemma op_claim_ok : forall F T a s v r s', Inv F T a s -> good_vad v -> op_claim v s = (r, s') ->
  match r with
  | Ok _ => (forall d, f_cell a v <> Val d) /\ exists T', Inv F T' (put_fs a v Any false) s' /\ fro s s' /\ vw T' v <> None
  | Er => exists T', Inv F T' a s' /\ fro s s'
  | Bad => False
  end.
Proof.
  intros F T a s v r s' I G H. unfold op_claim, bind at 1 in H.
  destruct (require_spmaps v s) as [r1 s1] eqn:E1.
  destruct (require_spmaps_ok F T s v r1 s1 (iv_n _ _ _ _ I) (iv_b _ _ _ _ I) (good_range v G) E1) as (T1 & W1 & N1 & O1).
  assert (I1 := Inv_walk _ _ _ _ _ _ _ I W1). assert (F1 := fro_walked _ _ _ _ _ _ W1).
  destruct r1 as [leaf| |]; [|injection H as <- <-; exists T1; auto|congruence]. specialize (O1 leaf eq_refl).
  unfold bind at 1, gets at 1 in H. pose proof (allocated_ok _ _ _ _ _ _ (iv_n _ _ _ _ I1) O1) as AL.
  destruct (allocated s1 leaf v) eqn:EA. { injection H as <- <-. exists T1; auto. }
  unfold bind at 1 in H. destruct (resolve_leaf CUR v s1) as [r2 s2] eqn:E2.
  destruct (resolve_leaf_cur _ _ _ _ _ _ _ I1 G E2) as (I2 & F2 & N2 & O2).
  assert (F02 : fro s s2) by (eapply fro_trans; [exact F1|apply fro_fr; auto]).
  destruct r2 as [leaf2| |]; [|injection H as <- <-; exists T1; auto|congruence].
  unfold bind at 1 in H. destruct (llink_of leaf2 v s2) as [r3 s3] eqn:E3.
  destruct (llink_of_ok _ _ _ _ _ _ _ _ (iv_n _ _ _ _ I2) (O2 leaf2 eq_refl) E3) as (-> & N3 & _ & _).
  destruct r3 as [lr| |]; [|injection H as <- <-; exists T1; auto|congruence].
  apply (node_at_fr _ _ s2) in O1; auto.
  destruct (node_at_get _ _ _ _ _ _ (iv_n _ _ _ _ I2) O1) as (x & c & X1 & X2 & X3 & X4 & X5).
  rewrite (upd_node_run _ _ _ _ c) in H by exact X3. rewrite X4 in H. injection H as <- <-.
  set (n' := mkNode _ _ _ _).
  assert (NV : vw T1 v = None). { destruct (vw T1 v) eqn:Q; auto. exfalso. assert (false = true) by (apply AL; congruence). discriminate. }
  assert (UL := upd_leaf _ _ _ _ _ _ _ n' (iv_n _ _ _ _ I2) O1 X1 X3 eq_refl eq_refl).
  set (T2 := tset _ _ _) in UL.
  assert (VW : forall w, w <> v -> vw T2 w = vw T1 w).
  { intros w N. unfold vw, T2. destruct (keyb_dec (lkey v) (lkey w)) as [[_ E]|[_ E]].
    - rewrite <- E, tset_same, X1. cbn. unfold fsetZ.
      replace (snd w =? snd v) with false; auto. symmetry. apply Z.eqb_neq. intros Q. apply N.
      apply lkey_fst in E. destruct v, w; cbn in *; congruence.
    - rewrite tset_other by auto. auto. }
  assert (NC : get (cV s2) (vkey v) = None).
  { destruct (get (cV s2) (vkey v)) eqn:Q; auto. exfalso. eapply cached_alloc; eauto. }
  pose proof (iv_o _ _ _ _ I2) as O.
  split.
  - intros d Q. pose proof (oi_val _ _ _ _ _ O _ _ G Q) as V. rewrite NC in V. destruct V as (l0 & r0 & V & _). congruence.
  - exists T2. split; [|split].
    + constructor; cbn; [exact UL| |apply (iv_b _ _ _ _ I2)|apply (iv_boot _ _ _ _ I2)|apply (iv_sid _ _ _ _ I2)|apply (iv_clv _ _ _ _ I2)].
      unfold OIs. cbn [sb cV sV set_cu with_cU]. destruct O. constructor.
      * intros k c0 Hc. destruct (oi_keys _ _ Hc) as (w & K1 & K2 & K3). exists w. split; [auto|]. split; [auto|].
        rewrite VW; auto. intros ->. congruence.
      * intros w Gw Hw. destruct (vad_dec w v) as [[_ ->]|[_ N]]; cbn in Hw; [rewrite put_same in Hw; congruence|].
        rewrite put_other in Hw by auto. rewrite VW; auto.
      * intros w d Gw Hw. destruct (vad_dec w v) as [[_ ->]|[_ N]]; cbn in Hw; [rewrite put_same in Hw; congruence|].
        rewrite put_other in Hw by auto. specialize (oi_val _ _ Gw Hw). destruct (get (cV s2) (vkey w)).
        -- destruct oi_val as [A [B|[B C]]]; split; auto; [left; eapply (stored_W (vw T1)); eauto|right; split; auto; eapply (mine_W (vw T1)); eauto].
        -- eapply (stored_W (vw T1)); eauto.
      * intros w c0 Hc D. destruct (vad_dec w v) as [[_ ->]|[_ N]]; [congruence|].
        destruct (oi_dirty _ _ Hc D); auto. left. eapply (mine_W (vw T1)); eauto.
      * intros w c0 Hc D. destruct (vad_dec w v) as [[_ ->]|[_ N]]; [congruence|]. rewrite VW; auto.
      * intros w Gw Hw. destruct (vad_dec w v) as [[_ ->]|[_ N]]; cbn in Hw; [rewrite put_same in Hw; congruence|].
        rewrite put_other in Hw by auto. eapply (mine_W (vw T1)); eauto.
    + eapply fro_trans; [exact F02|]. constructor; cbn; auto; try lia.
      * intros lk Hl. rewrite get_set. destruct keyb; congruence.
      * eauto.
    + unfold vw, T2. rewrite tset_same. cbn. unfold fsetZ. rewrite Z.eqb_refl. congruence.
Qed.

Lemma op_spawn_ok : forall F T a s v d r s', Inv F T a s -> good_vad v -> op_spawn v d s = (r, s') ->
  match r with
  | Ok _ => (forall d', f_cell a v <> Val d') /\ exists T', Inv F T' (put_fs a v (Val d) true) s'
  | Er => exists T', Inv F T' (next a (Spawn v d) Er) s'
  | Bad => False
  end.
Proof.
  intros F T a s v d r s' I G H. unfold op_spawn, bind at 1 in H.
  destruct (op_claim v s) as [r1 s1] eqn:E1. pose proof (op_claim_ok _ _ _ _ _ _ _ I G E1) as P.
  destruct r1 as [u| |]; [| |contradiction].
  2: { injection H as <- <-. destruct P as (T1 & I1 & _). exists T1. cbn.
       destruct (f_cell a v) eqn:C; try (apply Inv_fail; auto; fail).
       eapply Inv_weaken; [exact I1| | |auto].
       - intros w _. cbn. destruct (vad_dec w v) as [[_ ->]|[_ N]]; [rewrite put_same; left; auto|rewrite put_other by auto; right; auto].
       - intros w. cbn. destruct (vad_dec w v) as [[_ ->]|[_ N]]; [rewrite put_same; auto|rewrite put_other by auto; auto]. }
  destruct P as (NV & T1 & I1 & F1 & _). unfold bind at 1 in H.
  destruct (stage_vnode COW true v s1) as [r2 s2] eqn:E2.
  assert (NR : true = true -> forall d, f_cell (put_fs a v Any false) v <> Val d).
  { intros _ d0. cbn. rewrite put_same. congruence. }
  destruct (stage_vnode_cow _ _ _ _ _ _ _ _ I1 G NR E2) as [F2 P].
  destruct r2 as [u2| |]; [| |contradiction].
  - destruct P as (T2 & c & I2 & C2 & M2 & _).
    destruct (modify_ok _ _ _ _ _ _ _ _ _ I2 G C2 M2 H) as (-> & I3 & _). split; auto. exists T2.
    eapply Inv_weaken; [exact I3| | |].
    + intros w _. right. cbn. destruct (vad_dec w v) as [[_ ->]|[_ N]]; [rewrite !put_same; auto|].
      rewrite !put_other by auto. rewrite spoil_if_cell.
      destruct (vad_dec w v) as [[Q1 Q]|[-> _]]; [congruence|]. rewrite andb_false_r. cbn. rewrite put_other; auto.
    + intros w. cbn. destruct (vad_dec w v) as [[_ ->]|[_ N]]; [rewrite !put_same; auto|].
      rewrite !put_other by auto. rewrite spoil_if_own. cbn. rewrite put_other; auto.
    + cbn. rewrite spoil_if_err. auto.
  - injection H as <- <-. destruct P as (T2 & I2 & _). exists T2.
    assert (FO : f_own a v = true -> f_cell a v = Free -> False).
    { intros A B. destruct (oi_own _ _ _ _ _ (iv_o _ _ _ _ I) _ G A) as (r0 & Q).
      rewrite (oi_free _ _ _ _ _ (iv_o _ _ _ _ I) _ G B) in Q. discriminate. }
    assert (OW : f_own a v = false).
    { destruct (f_own a v) eqn:OW; auto. exfalso.
      unfold op_claim, bind at 1 in E1.
      destruct (require_spmaps v s) as [q1 t1] eqn:Q1.
      destruct (require_spmaps_ok F T s v q1 t1 (iv_n _ _ _ _ I) (iv_b _ _ _ _ I) (good_range v G) Q1) as (T3 & W3 & N3 & O3).
      destruct q1 as [leaf| |]; try discriminate. specialize (O3 leaf eq_refl).
      unfold bind at 1, gets at 1 in E1. destruct W3 as (NI3 & _ & SW & _).
      pose proof (allocated_ok _ _ _ _ _ _ NI3 O3) as AL.
      destruct (oi_own _ _ _ _ _ (iv_o _ _ _ _ I) _ G OW) as (r0 & Q).
      rewrite (proj2 AL) in E1. { discriminate. } rewrite SW, Q. discriminate. }
    assert (K : Inv F T2 (fail (put_fs a v Any false)) s2).
    { eapply Inv_weaken; [exact I2| | |auto].
      - intros w _. cbn. rewrite spoil_if_cell. cbn.
        destruct (vad_dec w v) as [[Q ->]|[Q N]]; [rewrite !put_same; left; auto|]. rewrite Q, andb_false_r. right. auto.
      - intros w. cbn. rewrite spoil_if_own. auto. }
    cbn. destruct (f_cell a v) eqn:C; [| |congruence].
    + eapply Inv_weaken; [exact K| | |auto]; intros w; cbn.
      * intros _. right. auto.
      * rewrite OW. auto.
    + eapply Inv_weaken; [exact K| | |auto]; intros w; cbn.
      * intros _. destruct (vad_dec w v) as [[Q ->]|[Q N]]; [rewrite put_same; left; auto|]. rewrite put_other by auto. right. auto.
      * destruct (vad_dec w v) as [[Q ->]|[Q N]]; [congruence|]. rewrite put_other by auto. auto.
Qed.

(* ---- freeing ---- *)

Lemma blocks_cover : forall v w, good_vad w -> lkey w = lkey v -> In (slot w) (blocks_of (snd v)).
Proof.
  intros v w (A & B & C) E. unfold lkey, ukey in E. change H_SPLEAF with 2 in E. assert (Eb : base 2 (snd w) = base 2 (snd v)) by congruence.
  unfold blocks_of. change H_SPLEAF with 2. rewrite <- Eb. apply in_map_iff.
  exists (Z.to_nat ((slot w - base 2 (snd w)) / 65536)).
  rewrite slot_eq. unfold base, LBK_SIZE. replace (space_span 2) with 16777216 by reflexivity.
  set (o := snd w) in *.
  assert (Q1 := Z.div_mod o 65536 ltac:(lia)). assert (Q2 := Z.mod_pos_bound o 65536 ltac:(lia)).
  assert (Q3 := Z.div_mod o 16777216 ltac:(lia)). assert (Q4 := Z.mod_pos_bound o 16777216 ltac:(lia)).
  assert (Q5 : o / 16777216 = o / 65536 / 256) by (rewrite Z.div_div by lia; reflexivity).
  assert (Q6 := Z.div_mod (o / 65536) 256 ltac:(lia)). assert (Q7 := Z.mod_pos_bound (o / 65536) 256 ltac:(lia)).
  replace (o / 65536 * 65536 - o / 16777216 * 16777216) with ((o / 65536) mod 256 * 65536) by lia.
  rewrite Z.div_mul by lia. split.
  - rewrite Z2Nat.id by lia. lia.
  - apply in_seq. split; [lia|]. change 256%nat with (Z.to_nat 256). cbn [Nat.add]. apply Z2Nat.inj_lt; lia.
Qed.

Lemma get_punch : forall l v s l' w, (lkey w = lkey v -> l' <> l) ->
  get (sV (punch l v s)) (l' :: vkey w) = get (sV s) (l' :: vkey w).
Proof.
  intros l v s l' w H. unfold punch. cbn [sV with_sV]. apply get_filter. intros x. cbn.
  destruct (_ && _) eqn:Q; auto. exfalso. apply andb_true_iff in Q as [Q Q3]. apply andb_true_iff in Q as [Q1 Q2].
  apply Z.eqb_eq in Q1, Q2, Q3. apply H; auto. unfold lkey, ukey. change H_SPLEAF with 2 in *. rewrite Q2, Q3. auto.
Qed.

Record reclaimed (F : Z -> Prop) (T T' : tree) (s s' : st) (v : vad) : Prop := mkRcl {
  rc_n : NIs F T' s'; rc_v : vw T' v = None; rc_w : forall w, good_vad w -> w <> v -> vw T' w = vw T w;
  rc_sV : forall w l r, good_vad w -> w <> v -> vw T w = Some (Some l, r) -> get (sV s') (l :: vkey w) = get (sV s) (l :: vkey w);
  rc_cV : cV s' = cV s; rc_sb : sb_lv (sb s') = sb_lv (sb s); rc_oB : oB s' = []; rc_bt : boot s' = sid s';
  rc_sid : sid s' = sid s; rc_nx : nx s <= nx s' }.

Lemma op_reclaim_ok : forall F T a s v r s', Inv F T a s -> good_vad v -> op_reclaim v s = (r, s') ->
  match r with
  | Ok _ => exists T', reclaimed F T T' s s' v
  | Er => exists T', Inv F T' a s'
  | Bad => False
  end.
Proof.
  intros F T a s v r s' I G H. unfold op_reclaim, bind at 1 in H.
  destruct (require_spmaps v s) as [r1 s1] eqn:E1.
  destruct (require_spmaps_ok F T s v r1 s1 (iv_n _ _ _ _ I) (iv_b _ _ _ _ I) (good_range v G) E1) as (T1 & W1 & N1 & O1).
  assert (I1 := Inv_walk _ _ _ _ _ _ _ I W1). assert (SW : sameW T T1) by (destruct W1 as (_ & _ & Q & _); auto).
  assert (F1 : fr s s1) by (destruct W1 as (_ & Q & _); auto).
  destruct r1 as [leaf| |]; [|injection H as <- <-; exists T1; auto|congruence]. specialize (O1 leaf eq_refl).
  unfold bind at 1 in H. destruct (resolve_leaf CUR v s1) as [r2 s2] eqn:E2.
  destruct (resolve_leaf_cur _ _ _ _ _ _ _ I1 G E2) as (I2 & F2 & N2 & O2).
  assert (F02 : fr s s2) by (eapply fr_trans; eauto).
  destruct r2 as [leaf2| |]; [|injection H as <- <-; exists T1; auto|congruence].
  unfold bind at 1 in H. destruct (llink_of leaf2 v s2) as [r3 s3] eqn:E3.
  destruct (llink_of_ok _ _ _ _ _ _ _ _ (iv_n _ _ _ _ I2) (O2 leaf2 eq_refl) E3) as (-> & N3 & _ & _).
  destruct r3 as [lr| |]; [|injection H as <- <-; exists T1; auto|congruence].
  apply (node_at_fr _ _ s2) in O1; auto.
  unfold bind at 1, gets at 1 in H. unfold bind at 1, gets at 1 in H. unfold bind at 1, mod_st at 1 in H.
  set (rnd := e_rnd _ _ _) in H. set (s3 := with_nx (nx s2 + 1) s2) in H.
  assert (I3 : NIs F T1 s3) by (unfold NIs, s3; cbn; eapply NI_nx; [exact (iv_n _ _ _ _ I2)|lia]).
  assert (O3 : node_at T1 s3 COW (lkey v) leaf) by exact O1.
  destruct (node_at_get _ _ _ _ _ _ I3 O3) as (x & c & X1 & X2 & X3 & X4 & X5).
  unfold bind at 1 in H. rewrite (upd_node_run _ _ _ _ c) in H by exact X3. rewrite X4 in H.
  set (al := fsetZ (n_alloc (t_n x)) (snd v) false) in H.
  set (n1 := mkNode (n_main (t_n x)) (n_kid (t_n x)) (n_riv (t_n x)) al) in H.
  set (n' := if block_used n1 (fst v) (slot v) then n1 else _) in H.
  assert (NM : n_main n' = n_main (t_n x)) by (unfold n'; destruct block_used; auto).
  assert (NK : n_kid n' = n_kid (t_n x)) by (unfold n'; destruct block_used; auto).
  assert (NA : n_alloc n' = al) by (unfold n'; destruct block_used; auto).
  assert (UL := upd_leaf _ _ _ _ _ _ _ n' I3 O3 X1 X3 NM NK).
  set (T2 := tset _ _ _) in UL. set (s4 := set_cu _ _ _ s3) in *.
  assert (V0 : vw T2 v = None).
  { unfold vw, T2. rewrite tset_same. cbn. rewrite NA. unfold al, fsetZ. rewrite Z.eqb_refl. auto. }
  assert (VW : forall w, good_vad w -> w <> v -> vw T2 w = vw T1 w).
  { intros w Gw N. unfold vw, T2. destruct (keyb_dec (lkey v) (lkey w)) as [[_ E]|[_ E]].
    - rewrite <- E, tset_same, X1. cbn. rewrite NA, NK.
      assert (AL : al (snd w) = n_alloc (t_n x) (snd w)).
      { unfold al, fsetZ. replace (snd w =? snd v) with false; auto. symmetry. apply Z.eqb_neq. intros Q. apply N.
        apply lkey_fst in E. destruct v, w; cbn in *; congruence. }
      rewrite AL. destruct (n_alloc (t_n x) (snd w)) eqn:EA; auto. f_equal. f_equal.
      unfold n'. destruct (block_used n1 (fst v) (slot v)) eqn:BU; auto. cbn. unfold fsetZ.
      destruct (slot w =? slot v) eqn:SS; auto. exfalso.
      unfold block_used in BU. rewrite <- not_true_iff_false in BU. apply BU. apply existsb_exists. exists w. split.
      + apply lkey_fst in E. rewrite E. replace (slot v) with (slot w) by lia. apply in_objs_at; auto.
      + cbn. rewrite AL. auto.
    - rewrite tset_other by auto. auto. }
  assert (BASE : forall sv, (forall w l r0, good_vad w -> w <> v -> vw T w = Some (Some l, r0) ->
     get sv (l :: vkey w) = get (sV s2) (l :: vkey w)) -> reclaimed F T T2 s (with_sV sv s4) v).
  { intros sv HS. constructor; cbn [cV with_sV sb oB boot sid nx s4 s3 set_cu with_cU with_nx]; auto.
    - intros w Gw N. rewrite VW by auto. apply SW.
    - intros w l r0 Gw N Hw. rewrite <- (fr_sV _ _ F02). eauto.
    - apply (fr_cV _ _ F02).
    - apply (fr_lv _ _ F02).
    - apply (iv_b _ _ _ _ I2).
    - apply (iv_boot _ _ _ _ I2).
    - apply (fr_sid _ _ F02).
    - pose proof (fr_nx _ _ F02). lia. }
  assert (SAME : reclaimed F T T2 s s4 v).
  { replace s4 with (with_sV (sV s4) s4) by (destruct s4; auto). apply BASE. auto. }
  unfold bind at 1, gets at 1 in H. unfold bind at 1, gets at 1 in H.
  replace (get (cU s4) (leaf :: lkey v)) with (Some (mkCu n' (u_riv c) true)) in H
    by (unfold s4, set_cu; cbn [cU with_cU]; rewrite get_set_same; reflexivity).
  cbn [u_node] in H. destruct (leaf_used n' v) eqn:LU. { injection H as <- <-. exists T2; auto. }
  destruct (n_main n') as [l|]; [|injection H as <- <-; exists T2; auto].
  destruct (l =? lv s4); [|injection H as <- <-; exists T2; auto].
  injection H as <- <-. exists T2. unfold punch. apply BASE.
  intros w l0 r0 Gw N Hw. change (sV s2) with (sV s4).
  apply (get_punch l v s4). intros LK. exfalso.
  unfold leaf_used in LU. rewrite <- not_true_iff_false in LU. apply LU. apply existsb_exists. exists (slot w). split.
  - apply blocks_cover; auto.
  - unfold block_used. apply existsb_exists. exists w. split.
    + rewrite <- (lkey_fst _ _ LK). apply in_objs_at; auto.
    + rewrite NA. rewrite <- SW, <- (VW w Gw N) in Hw. unfold vw, T2 in Hw. rewrite LK, tset_same in Hw. cbn in Hw.
      rewrite NA in Hw. destruct (al (snd w)); auto. discriminate.
Qed.

Lemma op_remove_ok : forall F T a s v r s', Inv F T a s -> good_vad v -> op_remove v s = (r, s') ->
  match r with
  | Ok _ => exists T', Inv F T' (put_fs a v Free false) s'
  | Er => exists T', Inv F T' (fail (spoil_if (lossy a v) a v)) s'
  | Bad => False
  end.
Proof.
  intros F T a s v r s' I G H. unfold op_remove, bind at 1 in H.
  destruct (resolve_inspect COW false v s) as [r1 s1] eqn:E1.
  destruct (resolve_cow_ok _ _ _ _ _ _ _ _ I G E1) as [F1 P]. change (hurt false a v) with (lossy a v) in P.
  set (a1 := spoil_if (lossy a v) a v) in *.
  destruct r1 as [lr| |]; [| |contradiction].
  2: { injection H as <- <-. destruct P as (T1 & P & _). exists T1.
       eapply Inv_weaken; [exact P| | |auto]; intros w; cbn.
       - intros _. unfold a1. rewrite spoil_if_cell. destruct (_ && _); [apply le_spoil|right; auto].
       - unfold a1. rewrite spoil_if_own. auto. }
  destruct P as (T1 & I1 & _ & _ & _). unfold bind at 1 in H.
  destruct (op_reclaim v s1) as [r2 s2] eqn:E2. pose proof (op_reclaim_ok _ _ _ _ _ _ _ I1 G E2) as P.
  destruct r2 as [u| |]; [|injection H as <- <-; destruct P as (T2 & P); exists T2; apply Inv_fail; auto|contradiction].
  destruct P as (T2 & []). injection H as <- <-. exists T2.
  destruct I1 as [_ O1 B1 BT SD CL]. constructor; cbn; auto; try lia.
  - unfold OIs in *. cbn [sb cV sV with_cV]. rewrite rc_cV0. destruct O1.
    assert (ST : forall w d, good_vad w -> w <> v -> stored (vw T1) (sV s1) w d -> stored (vw T2) (sV s2) w d).
    { intros w d Gw N (l & r0 & A & B). exists l, r0. rewrite rc_w0 by auto. split; auto. rewrite (rc_sV0 _ _ _ Gw N A). auto. }
    assert (MI : forall w, good_vad w -> w <> v -> mine (vw T1) (sb s1) w -> mine (vw T2) (sb s2) w).
    { intros w Gw N (r0 & A). exists r0. rewrite rc_w0, rc_sb0; auto. }
    assert (KE : forall w c, get (del (cV s1) (vkey v)) (vkey w) = Some c -> w <> v /\ good_vad w /\ get (cV s1) (vkey w) = Some c).
    { intros w c Hc. rewrite get_del in Hc. destruct (keyb_dec (vkey v) (vkey w)) as [[E Q]|[E Q]]; rewrite E in Hc; [discriminate|].
      split; [congruence|]. split; auto. destruct (oi_keys _ _ Hc) as (w' & K & Gw & _). apply vkey_inj in K. subst; auto. }
    assert (CE : forall w, w <> v -> f_cell a1 w = f_cell a w).
    { intros w N. unfold a1. rewrite spoil_if_cell. destruct (vad_dec w v) as [[Q ->]|[Q _]]; [congruence|]. rewrite Q, andb_false_r. auto. }
    constructor.
    + intros k c Hc. rewrite get_del in Hc. destruct (keyb_dec (vkey v) k) as [[E Q]|[E Q]]; rewrite E in Hc; [discriminate|].
      destruct (oi_keys _ _ Hc) as (w & -> & K2 & K3). exists w. rewrite rc_w0; auto. congruence.
    + intros w Gw Hw. cbn in Hw. destruct (vad_dec w v) as [[_ ->]|[_ N]]; auto.
      rewrite put_other in Hw by auto. rewrite rc_w0 by auto. apply oi_free; auto. rewrite CE; auto.
    + intros w d Gw Hw. cbn in Hw. destruct (vad_dec w v) as [[_ ->]|[_ N]]; [rewrite put_same in Hw; discriminate|].
      rewrite put_other in Hw by auto. rewrite <- CE in Hw by auto. pose proof (oi_val _ _ Gw Hw) as V.
      rewrite get_del. destruct (keyb_dec (vkey v) (vkey w)) as [[E Q]|[E Q]]; rewrite E; [apply vkey_inj in Q; congruence|].
      destruct (get (cV s1) (vkey w)); auto. destruct V as [V1 [V2|[V2 V3]]]; split; auto.
    + intros w c Hc D. destruct (KE _ _ Hc) as (N & Gw & Hc'). cbn. destruct (oi_dirty _ _ Hc' D) as [Q|Q].
      * left. auto.
      * right. unfold a1 in Q. rewrite spoil_if_err in Q. auto.
    + intros w c Hc D. destruct (KE _ _ Hc) as (N & Gw & Hc'). rewrite rc_w0, rc_sb0; auto. apply oi_llink; auto. congruence.
    + intros w Gw Hw. cbn in Hw. destruct (vad_dec w v) as [[_ ->]|[_ N]]; [rewrite put_same in Hw; discriminate|].
      rewrite put_other in Hw by auto. apply MI; auto. apply oi_own; auto. unfold a1. rewrite spoil_if_own. auto.
  - intros k c Hc. rewrite rc_cV0, get_del in Hc. destruct (keyb (vkey v) k); [discriminate|]. specialize (CL _ _ Hc). lia.
Qed.
