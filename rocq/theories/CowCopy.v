(* Copy-on-write: giving a block a new home, and the operations on objects. *)
From Verif Require Import Base AddrModel CowModel CowSpec CowProofs CowWalk CowObj.
Open Scope Z_scope.

(* ---- the objects of one block ---- *)

Lemma size_div : forall t, ltype_isvnode t = true ->
  exists q, 0 < q /\ 0 < ltype_size t /\ 65536 = ltype_size t * q /\ LBK_SIZE / ltype_size t = q.
Proof.
  intros t H. unfold ltype_isvnode, LT_INODE, LT_DATABK in H.
  assert (t = 5 \/ t = 6 \/ t = 7 \/ t = 8 \/ t = 9 \/ t = 10 \/ t = 11 \/ t = 12) as D by lia.
  repeat destruct D as [-> | D]; try subst t;
  match goal with |- exists q, _ /\ _ /\ _ /\ ?x = q => exists x end; repeat split; reflexivity.
Qed.

Lemma slot_eq : forall v, slot v = snd v / 65536 * 65536.
Proof. reflexivity. Qed.

Lemma lkey_slot : forall v w, fst v = fst w -> slot v = slot w -> lkey v = lkey w.
Proof.
  intros v w A B. unfold lkey, ukey. rewrite A. change H_SPLEAF with 2.
  rewrite <- (base_leaf_slot (snd v)), <- (base_leaf_slot (snd w)).
  unfold slot in B. change H_VDATA with 1 in B. rewrite B. auto.
Qed.

Lemma in_objs_at : forall v, good_vad v -> In v (objs_at (fst v) (slot v)).
Proof.
  intros [t off] (A & B & C). cbn [fst snd] in *. destruct (size_div t A) as (q & Q0 & S0 & E & L).
  unfold objs_at. rewrite L. apply in_map_iff. rewrite slot_eq. cbn [snd].
  set (b := off / 65536 * 65536). set (z := ltype_size t) in *.
  assert (Hb : 0 <= off - b < 65536).
  { unfold b. clear -B. pose proof (Z.div_mod off 65536). pose proof (Z.mod_pos_bound off 65536). lia. }
  assert (Hm : (off - b) mod z = 0).
  { unfold b. rewrite E. replace (off - off / (z * q) * (z * q)) with (off + (- (off / (z * q) * q)) * z) by ring.
    rewrite Z.mod_add by lia. auto. }
  assert (Hq : off - b = z * ((off - b) / z)).
  { pose proof (Z.div_mod (off - b) z ltac:(lia)). rewrite Hm in H. lia. }
  assert (0 <= (off - b) / z) by (apply Z.div_pos; lia).
  assert ((off - b) / z < q) by (apply Z.div_lt_upper_bound; lia).
  exists (Z.to_nat ((off - b) / z)). split.
  - rewrite Z2Nat.id by auto. f_equal. clear -Hq. nia.
  - apply in_seq. lia.
Qed.

Lemma objs_at_in : forall v w, good_vad v -> In w (objs_at (fst v) (slot v)) ->
  fst w = fst v /\ slot w = slot v /\ lkey w = lkey v /\ (snd w <> 0 -> good_vad w).
Proof.
  intros v w (A & B & C) H. destruct (size_div (fst v) A) as (q & Q0 & S0 & E & L).
  unfold objs_at in H. rewrite L in H. apply in_map_iff in H as (i & <- & Hi). apply in_seq in Hi.
  cbn [fst snd]. set (z := ltype_size (fst v)) in *.
  assert (Hi2 : 0 <= Z.of_nat i * z < 65536).
  { split; [nia|]. rewrite E. rewrite (Z.mul_comm z q). apply Z.mul_lt_mono_pos_r; lia. }
  pose proof (slot_eq v) as SV. set (k := snd v / 65536) in *. rewrite SV.
  assert (SL : (k * 65536 + Z.of_nat i * z) / 65536 = k).
  { rewrite Z.add_comm, Z.div_add by lia. rewrite Z.div_small by lia. lia. }
  assert (SW : slot (fst v, k * 65536 + Z.of_nat i * z) = k * 65536)
    by (unfold slot, base; change (space_span H_VDATA) with 65536; cbn [snd]; rewrite SL; auto).
  split; [auto|]. split; [auto|]. split.
  - apply lkey_slot; auto; congruence.
  - intros N. split; [auto|]. cbn [fst snd]. fold z. split.
    + assert (0 <= k) by (apply Z.div_pos; lia).
      assert (k < 2 ^ 56 / 65536) by (apply Z.div_lt_upper_bound; [lia|]; cbn; lia).
      change (2 ^ 56 / 65536) with 1099511627776 in *. change (2 ^ 56) with 72057594037927936. lia.
    + rewrite Z.mod_add by lia. rewrite E. replace (k * (z * q)) with ((k * q) * z) by ring.
      apply Z.mod_mul. lia.
Qed.

(* ---- staging the neighbours ---- *)

Lemma pre_clone_ok : forall F T a raw v ws ac s r s',
  Inv F T a s -> (forall w, In w ws -> snd w <> 0 -> good_vad w) ->
  (forall w, In w ac -> get (cV s) (vkey w) <> None) ->
  pre_clone ws raw v ac s = (r, s') ->
  fro s s' /\
  match r with
  | Ok done => Inv F T a s' /\ (forall w, In w done -> get (cV s') (vkey w) <> None) /\
               (forall w, In w done <-> In w ac \/ (In w ws /\ pre_skip raw v w = false))
  | Er => Inv F T (fail a) s'
  | Bad => False
  end.
Proof.
  intros F T a raw v. induction ws as [|w ws IH]; intros ac s r s' I Hg Ha H.
  - injection H as <- <-. split; [apply fro_refl|]. split; [auto|]. split; [auto|]. intros w. cbn. tauto.
  - cbn [pre_clone] in H. destruct (pre_skip raw v w) eqn:Es.
    + destruct (IH ac s r s' I ltac:(intros; apply Hg; auto; right; auto) Ha H) as [A B]. split; auto.
      destruct r as [done| |]; auto. destruct B as (B1 & B2 & B3). split; [auto|]. split; [auto|].
      intros u. rewrite B3. cbn. split; [tauto|]. intros [Q|[[->|Q] Q2]]; auto. congruence.
    + assert (G : good_vad w).
      { apply Hg; [left; auto|]. unfold pre_skip in Es. apply orb_false_iff in Es as [Es _]. lia. }
      destruct (stage_cur w s) as [r1 s1] eqn:E1.
      destruct (stage_cur_ok _ _ _ _ _ _ _ I G E1) as (I1 & F1 & N1 & O1).
      assert (CC : forall u, In u ac -> get (cV s1) (vkey u) <> None).
      { intros u Hu. specialize (Ha u Hu). destruct (get (cV s) (vkey u)) eqn:E; [|congruence].
        destruct (fo_cV _ _ F1 _ _ E) as (c' & -> & _). congruence. }
      destruct r1 as [[]| |].
      * destruct (IH (w :: ac) s1 r s' I1 ltac:(intros; apply Hg; auto; right; auto)) as [A B]; auto.
        { intros u [<-|Hu]; auto. }
        split; [eapply fro_trans; eauto|]. destruct r as [done| |]; auto. destruct B as (B1 & B2 & B3).
        split; [auto|]. split; [auto|]. intros u. rewrite B3. cbn. split.
        -- intros [[<-|Q]|[Q Q2]]; auto.
        -- intros [Q|[[<-|Q] Q2]]; auto.
      * destruct (redirty ac s1) as [r2 s2] eqn:E2. destruct (redirty_fail _ _ _ _ _ _ _ I1 E2) as (_ & I2 & F2).
        injection H as <- <-. split; [eapply fro_trans; eauto|auto].
      * congruence.
Qed.

(* ---- the new home ---- *)

Definition rebind (n : node) (v : vad) : node :=
  mkNode (n_main n) (fsetZ (n_kid n) (slot v) (n_main n)) (n_riv n) (n_alloc n).

Definition spoil_if (c : bool) (a : fs) (v : vad) : fs := if c then spoil_fs a v else a.

Lemma vw_rebind : forall T v x L, T (lkey v) = Some x -> n_main (t_n x) = Some L ->
  forall w, vw (tset T (lkey v) (mkTn (t_l x) (t_r x) (rebind (t_n x) v))) w =
    match vw T w with
    | Some (l, r) => if (fst w =? fst v) && (slot w =? slot v) then Some (Some L, r) else Some (l, r)
    | None => None
    end.
Proof.
  intros T v x L Hx Hm w. unfold vw. destruct (keyb_dec (lkey v) (lkey w)) as [[_ E]|[_ E]].
  - rewrite <- E, tset_same, Hx. cbn. destruct (n_alloc (t_n x) (snd w)); auto.
    unfold fsetZ. assert (fst w = fst v) by (unfold lkey, ukey in E; congruence).
    replace (fst w =? fst v) with true by lia. cbn. destruct (slot w =? slot v); auto. congruence.
  - rewrite tset_other by auto. destruct (T (lkey w)) as [y|]; auto. destruct (n_alloc (t_n y) (snd w)); auto.
    destruct ((fst w =? fst v) && (slot w =? slot v)) eqn:Q; auto.
    exfalso. apply E. symmetry. apply lkey_slot; lia.
Qed.

Lemma le_spoil : forall c, le_cell c (spoil c).
Proof. intros []; unfold le_cell; cbn; auto. Qed.
Lemma spoil_if_cell : forall c a v w, f_cell (spoil_if c a v) w =
  if c && vad_eqb w v then spoil (f_cell a w) else f_cell a w.
Proof.
  intros c a v w. unfold spoil_if, spoil_fs. destruct c; auto. cbn. unfold put.
  destruct (vad_dec w v) as [[E Q]|[E Q]]; rewrite E; subst; auto.
Qed.
Lemma spoil_if_own : forall c a v w, f_own (spoil_if c a v) w = f_own a w.
Proof.
  intros c a v w. unfold spoil_if, spoil_fs. destruct c; auto. cbn. unfold put.
  destruct (vad_dec w v) as [[E Q]|[E Q]]; rewrite E; subst; auto.
Qed.
Lemma spoil_if_err : forall c a v, f_err (spoil_if c a v) = f_err a.
Proof. intros [] a v; auto. Qed.
Lemma Inv_spoil : forall F T a s c v, Inv F T a s -> Inv F T (spoil_if c a v) s.
Proof.
  intros. eapply Inv_weaken; eauto.
  - intros w _. rewrite spoil_if_cell. destruct (c && vad_eqb w v); [apply le_spoil|right; auto].
  - intros w. rewrite spoil_if_own. auto.
  - rewrite spoil_if_err. auto.
Qed.

Lemma clone_lbk_ok : forall F T a s raw v leaf r s',
  Inv F T a s -> good_vad v -> node_at T s COW (lkey v) leaf ->
  clone_lbk raw v leaf s = (r, s') ->
  fro s s' /\
  match r with
  | Ok _ => exists T', Inv F T' (spoil_if (raw || isdatabk v) a v) s' /\ node_at T' s' COW (lkey v) leaf /\
            (exists rv, link_at T' v = Some (Some (lv s), rv)) /\ (forall w, vw T w <> None <-> vw T' w <> None)
  | Er => Inv F T (fail a) s'
  | Bad => False
  end.
Proof.
  intros F T a s raw v leaf r s' I G N H. unfold clone_lbk, bind at 1, gets at 1 in H.
  unfold bind at 1 in H. set (ws := block_objs s leaf v) in H.
  assert (WS : forall w, In w ws <-> In w (objs_at (fst v) (slot v)) /\ vw T w <> None).
  { intros w. unfold ws, block_objs. rewrite filter_In. split; intros [A B]; split; auto.
    - destruct (objs_at_in v w G A) as (_ & _ & LK & _). rewrite <- LK in N.
      apply (allocated_ok F T s COW w leaf (iv_n _ _ _ _ I) N). auto.
    - destruct (objs_at_in v w G A) as (_ & _ & LK & _). rewrite <- LK in N.
      apply (allocated_ok F T s COW w leaf (iv_n _ _ _ _ I) N). auto. }
  destruct (pre_clone ws raw v [] s) as [r1 s1] eqn:E1.
  destruct (pre_clone_ok F T a raw v ws [] s r1 s1 I) as [F1 P]; auto.
  { intros w Hw Hz. apply WS in Hw as [Hw _]. apply (objs_at_in v w G Hw). auto. }
  destruct r1 as [done| |]; [|injection H as <- <-; auto|contradiction].
  destruct P as (I1 & P2 & P3).
  assert (N1 : node_at T s1 COW (lkey v) leaf).
  { destruct N as (x & A & B & C & D). exists x. repeat split; auto.
    - apply (fo_cU _ _ F1). auto.
    - intros Q. rewrite (D Q). symmetry. apply (fo_lv _ _ F1). }
  destruct (node_at_get _ _ _ _ _ _ (iv_n _ _ _ _ I1) N1) as (x & c & X1 & X2 & X3 & X4 & X5).
  assert (LL : leaf = lv s1) by (destruct N1 as (y & _ & _ & _ & Q); auto).
  assert (MN : n_main (t_n x) = Some (lv s1)).
  { destruct (ni_main _ _ _ _ _ _ _ (iv_n _ _ _ _ I1) (fst v) 2 (base 2 (snd v)) x X1) as [Q|[Q _]]; auto.
    - rewrite X2; auto.
    - congruence. }
  unfold bind at 1 in H. unfold require_leaf_main, bind, gets in H. cbn [p_main] in H.
  rewrite X3, X4, MN in H.
  assert (EE : forall f, (let (_, s2) := redirty done (with_oF f s1) in (@Er unit, s2)) = (r, s') -> 
     fro s s' /\ r = Er /\ Inv F T (fail a) s').
  { intros f Q. destruct (redirty done (with_oF f s1)) as [r2 s2] eqn:E2.
    destruct (redirty_fail _ _ _ _ _ _ _ (Inv_oF _ _ _ _ f I1) E2) as (_ & I2 & F2). injection Q as <- <-.
    split; [|auto]. eapply fro_trans; [exact F1|]. eapply fro_trans; [apply fro_fr, fr_oF|]. exact F2. }
  destruct (may_fail_cases s1) as [f [Q|Q]]; rewrite Q in H.
  2: { destruct (EE f H) as (A & -> & B). auto. }
  destruct (may_fail_cases (with_oF f s1)) as [f2 [Q2|Q2]]; rewrite Q2 in H.
  2: { change (with_oF f2 (with_oF f s1)) with (with_oF f2 s1) in H. destruct (EE f2 H) as (A & -> & B). auto. }
  change (with_oF f2 (with_oF f s1)) with (with_oF f2 s1) in H. clear EE Q Q2.
  rewrite (upd_node_run _ _ _ _ c) in H by exact X3.
  set (s2 := set_cu leaf (lkey v) _ (with_oF f2 s1)) in H.
  assert (S2 : s2 = set_cu leaf (lkey v) (mkCu (rebind (t_n x) v) (u_riv c) true) (with_oF f2 s1))
    by (unfold s2; rewrite X4; reflexivity).
  clearbody s2. subst s2.
  set (s2 := set_cu leaf (lkey v) (mkCu (rebind (t_n x) v) (u_riv c) true) (with_oF f2 s1)) in H.
  destruct (redirty_ok _ _ _ _ H) as (-> & (cv_ & ->) & RA & RB).
  set (T' := tset T (lkey v) (mkTn (t_l x) (t_r x) (rebind (t_n x) v))).
  assert (VW := vw_rebind T v x (lv s1) X1 MN). fold T' in VW.
  assert (NI2 : NIs F T' s2).
  { unfold NIs, s2, set_cu. cbn [nx sb cU uam sU with_cU with_oF]. unfold T', lkey, ukey.
    change H_SPLEAF with 2 in *. replace leaf with (t_l x). apply NI_upd with (c := c); auto.
    - exact (iv_n _ _ _ _ I1).
    - rewrite X2. exact LL.
    - rewrite X2. exact X3.
    - intros Q; congruence.
    - intros _ j. cbn. unfold fsetZ. destruct (j =? slot v).
      + unfold lv in *. eauto.
      + eapply (ni_leaf _ _ _ _ _ _ _ (iv_n _ _ _ _ I1)); eauto.
  }
  assert (LV2 : sb s2 = sb s1) by reflexivity.
  assert (F2 : fro s1 (with_cV cv_ s2)).
  { constructor; cbn; auto; try lia.
    - intros lk Hl. unfold s2, set_cu. cbn [cU with_cU with_oF]. rewrite get_set. destruct keyb; congruence.
    - intros k0 c0 Hc. cbn [cV with_cV] in *.
      destruct (in_dec (list_eq_dec Z.eq_dec) k0 (map vkey done)) as [Q|Q].
      + apply in_map_iff in Q as (w & Q1 & Q2). rewrite RA by eauto.
        replace (get (cV s2) k0) with (Some c0) by (symmetry; exact Hc). cbn. eauto.
      + rewrite RB; [exists c0; split; auto|]. intros w Hw ->. apply Q. apply in_map; auto. }
  split; [eapply fro_trans; eauto|]. exists T'.
  assert (X : forall k c, get cv_ k = Some c -> exists c0, get (cV s1) k = Some c0 /\ v_dat c = v_dat c0 /\
              v_lv c = v_lv c0 /\ v_riv c = v_riv c0 /\ (v_dirty c0 = true -> v_dirty c = true)).
  { intros k0 c0 Hc. cbn [cV with_cV] in *. change (cV s2) with (cV s1) in *.
    destruct (in_dec (list_eq_dec Z.eq_dec) k0 (map vkey done)) as [Q|Q].
    - apply in_map_iff in Q as (w & Q1 & Q2). rewrite RA in Hc by eauto.
      destruct (get (cV s1) k0) as [c1|]; [|discriminate]. injection Hc as <-. exists c1. auto.
    - rewrite RB in Hc. { eauto 10. } intros w Hw ->. apply Q. apply in_map; auto. }
  cbn [cV with_cV] in RA, RB. change (cV s2) with (cV s1) in RA, RB.
  assert (DN : forall w, good_vad w -> vw T w <> None -> fst w = fst v -> slot w = slot v ->
               pre_skip raw v w = false -> exists c1, get (cV s1) (vkey w) = Some c1 /\ get cv_ (vkey w) = Some (dirtied c1)).
  { intros w Gw Hw A B S. assert (In w done).
    { apply P3. right. split; auto. apply WS. split; auto. rewrite <- A, <- B. apply in_objs_at; auto. }
    pose proof (P2 w H0) as C. destruct (get (cV s1) (vkey w)) as [c1|] eqn:E; [|congruence].
    exists c1. split; auto. rewrite RA by eauto. rewrite E. auto. }
  assert (LVs : lv s1 = lv s) by (apply (fo_lv _ _ F1)).
  assert (MINE : forall w, vw T w <> None -> fst w = fst v -> slot w = slot v -> mine (vw T') (sb s1) w).
  { intros w Hw A B. unfold mine. rewrite VW. destruct (vw T w) as [[l0 r0]|]; [|congruence].
    replace ((fst w =? fst v) && (slot w =? slot v)) with true by lia. exists r0. auto. }
  assert (KEEP : forall w, mine (vw T) (sb s1) w -> mine (vw T') (sb s1) w).
  { intros w (r0 & Hw). unfold mine. rewrite VW, Hw. destruct (_ && _); exists r0; auto. }
  split; [|split; [|split]].
  - destruct I1 as [_ O1 B1 BT SD CL]. constructor; cbn; auto.
    2: { intros k0 c0 Hc. destruct (X _ _ Hc) as (c1 & Hc1 & _ & E & _). rewrite E. eauto. }
    unfold OIs. cbn [sb cV sV with_cV]. rewrite LV2. change (sV s2) with (sV s1).
    destruct O1. constructor.
    + intros k0 c0 Hc. destruct (X _ _ Hc) as (c1 & Hc1 & _). destruct (oi_keys _ _ Hc1) as (w & K1 & K2 & K3).
      exists w. repeat split; auto; try apply K2. rewrite VW. destruct (vw T w) as [[l0 r0]|]; [|congruence]. destruct (_ && _); congruence.
    + intros w Gw Hw. rewrite spoil_if_cell in Hw. rewrite VW. rewrite oi_free; auto.
      destruct ((raw || isdatabk v) && vad_eqb w v); auto. destruct (f_cell a w); cbn in Hw; congruence.
    + intros w d Gw Hw. rewrite spoil_if_cell in Hw.
      destruct ((raw || isdatabk v) && vad_eqb w v) eqn:Sp. { destruct (f_cell a w); cbn in Hw; congruence. }
      pose proof (oi_val _ _ Gw Hw) as V.
      destruct ((fst w =? fst v) && (slot w =? slot v)) eqn:Same.
      * assert (AL : vw T w <> None).
        { destruct (get (cV s1) (vkey w)) as [c1|] eqn:E.
          - destruct V as [_ [(l0 & r0 & Q & _)|[_ (r0 & Q)]]]; congruence.
          - destruct V as (l0 & r0 & Q & _). congruence. }
        assert (PS : pre_skip raw v w = false).
        { unfold pre_skip. destruct Gw as (_ & Gw & _). replace (snd w =? 0) with false by lia. cbn.
          destruct (vad_dec v w) as [[E1' E2']|[E1' _]]; rewrite E1'; auto. subst w.
          rewrite (proj2 (vad_eqb_true v v) eq_refl) in Sp. destruct (raw || isdatabk v); auto. }
        destruct (DN w Gw AL ltac:(lia) ltac:(lia) PS) as (c1 & D1 & D2). rewrite D2. rewrite D1 in V. destruct V as [V1 _].
        split; [exact V1|]. right. split; auto. apply MINE; auto; lia.
      * assert (SW : vw T' w = vw T w). { rewrite VW, Same. destruct (vw T w) as [[? ?]|]; auto. }
        assert (ND : get cv_ (vkey w) = get (cV s1) (vkey w)).
        { apply RB. intros u Hu Q. apply vkey_inj in Q. subst u. apply P3 in Hu as [[]|[Hu _]].
          apply WS in Hu as [Hu _]. destruct (objs_at_in v w G Hu) as (Q1 & Q2 & _). lia. }
        rewrite ND. destruct (get (cV s1) (vkey w)) as [c1|].
        -- destruct V as [V1 [V2|[V2 V3]]]; split; auto. { left. eapply stored_W; eauto. }
        -- eapply stored_W; eauto.
    + intros w c0 Hc D. rewrite spoil_if_err.
      destruct (X _ _ Hc) as (c1 & Hc1 & _).
      destruct (oi_keys _ _ Hc1) as (w' & K1 & K2 & K3). apply vkey_inj in K1. subst w'.
      destruct (in_dec (list_eq_dec Z.eq_dec) (vkey w) (map vkey done)) as [Q|Q].
      * apply in_map_iff in Q as (u & Q1 & Q2). apply vkey_inj in Q1. subst u.
        apply P3 in Q2 as [[]|[Q2 _]]. apply WS in Q2 as [Q2 _]. destruct (objs_at_in v w G Q2) as (Q3 & Q4 & _).
        left. apply MINE; auto.
      * rewrite RB in Hc by (intros u Hu Q3; apply Q; rewrite Q3; apply in_map; auto).
        destruct (oi_dirty _ _ Hc D); auto.
    + intros w c0 Hc L. destruct (X _ _ Hc) as (c1 & Hc1 & E1' & E2' & E3' & _).
      rewrite E2' in L. specialize (oi_llink _ _ Hc1 L). rewrite VW, oi_llink, E3'. destruct (_ && _); auto.
    + intros w Gw Hw. rewrite spoil_if_own in Hw. apply KEEP. auto.
  - exists (mkTn (t_l x) (t_r x) (rebind (t_n x) v)). unfold T'. rewrite tset_same. split; [auto|]. split; [auto|].
    split; [cbn; rewrite get_set_same; congruence|]. intros _. exact LL.
  - unfold link_at, T'. rewrite tset_same. cbn. unfold fsetZ. rewrite Z.eqb_refl. rewrite MN, LVs. eauto.
  - intros w. rewrite VW. destruct (vw T w) as [[? ?]|]; [|tauto]. destruct (_ && _); split; congruence.
Qed.
