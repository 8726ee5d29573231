(* Copy-on-write: the invariant on objects, and what loading, re-homing, changing,
   creating, removing, writing out and forgetting objects do to it. *)
From Verif Require Import Base AddrModel CowModel CowSpec CowProofs CowWalk.
Open Scope Z_scope.

Definition wview := vad -> option (option Z * Z).
Definition stored (W : wview) (sv : amap (Z * bytes)) (v : vad) (d : bytes) : Prop :=
  exists l r, W v = Some (Some l, r) /\ get sv (l :: vkey v) = Some (r, d).
Definition mine (W : wview) (b : super) (v : vad) : Prop := exists r, W v = Some (Some (sb_lv b), r).

Record OI (W : wview) (a : fs) (b : super) (cv_ : amap cv) (sv : amap (Z * bytes)) : Prop := mkOI {
  oi_keys : forall k c, get cv_ k = Some c -> exists v, k = vkey v /\ good_vad v /\ W v <> None;
  oi_free : forall v, good_vad v -> f_cell a v = Free -> W v = None;
  oi_val : forall v d, good_vad v -> f_cell a v = Val d ->
    match get cv_ (vkey v) with
    | Some c => v_dat c = d /\ (stored W sv v d \/ (v_dirty c = true /\ mine W b v))
    | None => stored W sv v d
    end;
  oi_dirty : forall v c, get cv_ (vkey v) = Some c -> v_dirty c = true -> mine W b v \/ f_err a = true;
  oi_llink : forall v c, get cv_ (vkey v) = Some c -> v_lv c = sb_lv b -> W v = Some (Some (sb_lv b), v_riv c);
  oi_own : forall v, good_vad v -> f_own a v = true -> mine W b v }.

Definition OIs T a s := OI (vw T) a (sb s) (cV s) (sV s).
Record Inv (F : Z -> Prop) (T : tree) (a : fs) (s : st) : Prop := mkInv {
  iv_n : NIs F T s; iv_o : OIs T a s; iv_b : oB s = []; iv_boot : boot s = sid s; iv_sid : sid s < nx s;
  iv_clv : forall k c, get (cV s) k = Some c -> v_lv c < nx s }.

Lemma vkey_inj : forall v w, vkey v = vkey w -> v = w.
Proof. intros [a b] [c d] H. unfold vkey in H. cbn in H. congruence. Qed.
Lemma vad_eqb_true : forall v w, vad_eqb v w = true <-> v = w.
Proof.
  intros [a b] [c d]. unfold vad_eqb. cbn. split.
  - intros H. f_equal; lia.
  - intros H. injection H as -> ->. rewrite !Z.eqb_refl. auto.
Qed.
Lemma vad_dec : forall v w, (vad_eqb v w = true /\ v = w) \/ (vad_eqb v w = false /\ v <> w).
Proof.
  intros. destruct (vad_eqb v w) eqn:E; [left|right]; split; auto.
  - apply vad_eqb_true; auto.
  - intros Q. apply vad_eqb_true in Q. congruence.
Qed.
Lemma put_same : forall A (g : vad -> A) v x, put g v x v = x.
Proof. intros. unfold put. rewrite (proj2 (vad_eqb_true v v)); auto. Qed.
Lemma put_other : forall A (g : vad -> A) v w x, w <> v -> put g v x w = g w.
Proof. intros. unfold put. destruct (vad_dec w v) as [[E Q]|[E Q]]; rewrite E; congruence. Qed.

Lemma stored_W : forall W W' sv v d, W' v = W v -> stored W sv v d -> stored W' sv v d.
Proof. intros W W' sv v d E (l & r & H & G). exists l, r. rewrite E. auto. Qed.
Lemma mine_W : forall W W' b b' v, W' v = W v -> sb_lv b' = sb_lv b -> mine W b v -> mine W' b' v.
Proof. intros W W' b b' v E L (r & H). exists r. rewrite E, L. auto. Qed.

Lemma OI_walk : forall W W' a b b' cv_ sv, OI W a b cv_ sv -> (forall v, W' v = W v) -> sb_lv b' = sb_lv b ->
  OI W' a b' cv_ sv.
Proof.
  intros W W' a b b' cv_ sv [] E L. constructor.
  - intros k c H. destruct (oi_keys0 _ _ H) as (v & A & B & C). exists v. rewrite E. auto.
  - intros v G H. rewrite E. auto.
  - intros v d G H. specialize (oi_val0 _ _ G H). destruct (get cv_ (vkey v)).
    + destruct oi_val0 as [A [B|[B C]]]; split; auto; [left; eapply stored_W; eauto|right; split; auto; eapply mine_W; eauto].
    + eapply stored_W; eauto.
  - intros v c H D. destruct (oi_dirty0 _ _ H D); auto. left. eapply mine_W; eauto.
  - intros v c H D. rewrite E, L. apply oi_llink0; auto. congruence.
  - intros v G H. eapply mine_W; eauto.
Qed.

(* Knowing less. *)
Definition le_cell (x y : cell) : Prop := y = Any \/ y = x.
Lemma OI_weaken : forall W a a' b cv_ sv, OI W a b cv_ sv ->
  (forall v, good_vad v -> le_cell (f_cell a v) (f_cell a' v)) ->
  (forall v, f_own a' v = true -> f_own a v = true) ->
  (f_err a = true -> f_err a' = true) -> OI W a' b cv_ sv.
Proof.
  intros W a a' b cv_ sv [] C O E. constructor; auto.
  - intros v G H. destruct (C v G) as [Q|Q]; [congruence|]. apply oi_free0; auto. congruence.
  - intros v d G H. destruct (C v G) as [Q|Q]; [congruence|]. apply oi_val0; auto. congruence.
  - intros v c H D. destruct (oi_dirty0 _ _ H D); auto.
Qed.
Lemma Inv_weaken : forall F T a a' s, Inv F T a s ->
  (forall v, good_vad v -> le_cell (f_cell a v) (f_cell a' v)) ->
  (forall v, f_own a' v = true -> f_own a v = true) ->
  (f_err a = true -> f_err a' = true) -> Inv F T a' s.
Proof. intros F T a a' s [] C O E. constructor; auto. eapply OI_weaken; eauto. Qed.
Lemma Inv_fail : forall F T a s, Inv F T a s -> Inv F T (fail a) s.
Proof. intros. eapply Inv_weaken; eauto. intros v _. right. auto. Qed.

Lemma Inv_walk : forall F T a s m T' s', Inv F T a s -> walked F T s m T' s' -> Inv F T' a s'.
Proof.
  intros F T a s m T' s' [] (A & B & C & D). destruct B. constructor; auto; try congruence; try lia.
  - unfold OIs in *. rewrite fr_cV, fr_sV. eapply OI_walk; eauto.
  - intros k c H. rewrite fr_cV in H. specialize (iv_clv0 _ _ H). lia.
Qed.

Lemma good_range : forall v, good_vad v -> 0 <= snd v < top.
Proof. intros v (A & B & C). unfold top. lia. Qed.

(* ---- what object work may change ---- *)

Record fro (s s' : st) : Prop := mkFro {
  fo_ev : ev s' = ev s; fo_nx : nx s <= nx s'; fo_sU : sU s' = sU s; fo_sV : sV s' = sV s;
  fo_sS : sS s' = sS s; fo_lv : lv s' = lv s; fo_sid : sid s' = sid s; fo_boot : boot s' = boot s;
  fo_cU : forall lk, get (cU s) lk <> None -> get (cU s') lk <> None;
  fo_cV : forall k c, get (cV s) k = Some c -> exists c', get (cV s') k = Some c' /\ v_dat c' = v_dat c }.
Lemma fro_refl : forall s, fro s s.
Proof. intros. constructor; auto; try lia. eauto. Qed.
Lemma fro_trans : forall a b c, fro a b -> fro b c -> fro a c.
Proof.
  intros a b c [] []. constructor; try congruence; try lia; auto.
  intros k x H. destruct (fo_cV0 _ _ H) as (x1 & H1 & E1). destruct (fo_cV1 _ _ H1) as (x2 & H2 & E2).
  exists x2. split; auto. congruence.
Qed.
Lemma fro_fr : forall s s', fr s s' -> fro s s'.
Proof. intros s s' []. constructor; auto. intros k c H. rewrite fr_cV. eauto. Qed.
Lemma fro_walked : forall F T s m T' s', walked F T s m T' s' -> fro s s'.
Proof. intros F T s m T' s' (_ & A & _). apply fro_fr; auto. Qed.

(* ---- leaves ---- *)

Lemma node_at_get : forall F T s m k l, NIs F T s -> node_at T s m k l ->
  exists x c, T k = Some x /\ t_l x = l /\ get (cU s) (l :: k) = Some c /\ u_node c = t_n x /\ u_riv c = t_r x.
Proof.
  intros F T s m k l I (x & A & B & C & D). destruct (get (cU s) (l :: k)) as [c|] eqn:E; [|congruence].
  pose proof (ni_cell _ _ _ _ _ _ _ I _ _ A) as H. unfold cellok in H. rewrite B, E in H.
  destruct H as (H1 & H2 & _). exists x, c. auto.
Qed.

Definition link_at (T : tree) (v : vad) : option (option Z * Z) :=
  match T (lkey v) with Some x => Some (n_kid (t_n x) (slot v), n_riv (t_n x) (slot v)) | None => None end.
Lemma vw_link : forall T v p, vw T v = Some p -> link_at T v = Some p.
Proof. unfold vw, link_at. intros T v p. destruct (T (lkey v)); [|discriminate]. destruct (n_alloc _ _); [auto|discriminate]. Qed.
Lemma vw_link2 : forall T v p, vw T v <> None -> link_at T v = Some p -> vw T v = Some p.
Proof. unfold vw, link_at. intros T v p. destruct (T (lkey v)); [|congruence]. destruct (n_alloc _ _); congruence. Qed.

Lemma llink_of_ok : forall F T s m v l r s', NIs F T s -> node_at T s m (lkey v) l ->
  llink_of l v s = (r, s') ->
  s' = s /\ r <> Bad /\ (forall lr, r = Ok lr -> link_at T v = Some (Some (fst lr), snd lr)) /\
  (forall l0 r0, link_at T v = Some (Some l0, r0) -> r = Ok (l0, r0)).
Proof.
  intros F T s m v l r s' I N H. destruct (node_at_get _ _ _ _ _ _ I N) as (x & c & A & B & C & D & E).
  unfold llink_of, bind, gets in H. rewrite C in H. unfold link_at. rewrite A.
  rewrite D in H. destruct (n_kid (t_n x) (slot v)) as [l'|].
  - injection H as <- <-. repeat split; try congruence. intros lr Q. injection Q as <-. auto.
  - injection H as <- <-. repeat split; congruence.
Qed.

Lemma allocated_ok : forall F T s m v l, NIs F T s -> node_at T s m (lkey v) l ->
  allocated s l v = true <-> vw T v <> None.
Proof.
  intros F T s m v l I N. destruct (node_at_get _ _ _ _ _ _ I N) as (x & c & A & B & C & D & E).
  unfold allocated, vw. rewrite C, A, D. destruct (n_alloc (t_n x) (snd v)); split; congruence.
Qed.

Lemma link_at_F : forall F T s v l r, NIs F T s -> link_at T v = Some (Some l, r) -> l = lv s \/ F l.
Proof.
  intros F T s v l r I H. unfold link_at in H. destruct (T (lkey v)) as [x|] eqn:E; [|discriminate].
  injection H as H1 H2. unfold lkey, ukey in E.
  destruct (ni_leaf _ _ _ _ _ _ _ I _ _ _ E (slot v)) as (l' & A & B). unfold lv. congruence.
Qed.

(* ---- loading ---- *)

Lemma load_ok : forall l r v s R s', load l r v s = (R, s') ->
  s' = s /\ R <> Bad /\ (forall d, get (sV s) (l :: vkey v) = Some (r, d) -> R = Ok d).
Proof.
  intros l r v s R s' H. unfold load, bind, gets in H.
  destruct (get (sV s) (l :: vkey v)) as [[r' d']|].
  - destruct (r' =? r) eqn:E.
    + injection H as <- <-. repeat split; try congruence.
    + destruct (ltype_isdata (fst v)); injection H as <- <-; repeat split; try congruence;
      intros d Q; injection Q as Q1 Q2; lia.
  - destruct (ltype_isdata (fst v)); injection H as <- <-; repeat split; congruence.
Qed.

Definition good_load (T : tree) (a : fs) (v : vad) (d : bytes) : Prop := forall d', f_cell a v = Val d' -> d = d'.

(* A loaded object joins the cache. *)
Lemma OI_add : forall W a b cv_ sv v c,
  OI W a b cv_ sv -> good_vad v -> get cv_ (vkey v) = None -> W v <> None ->
  v_dirty c = false -> (v_lv c = sb_lv b -> W v = Some (Some (sb_lv b), v_riv c)) ->
  (forall d, f_cell a v = Val d -> v_dat c = d) ->
  OI W a b (set cv_ (vkey v) c) sv.
Proof.
  intros W a b cv_ sv v c [] G N HW D L C. constructor; auto.
  - intros k x H. rewrite get_set in H. destruct (keyb_dec (vkey v) k) as [[E <-]|[E Q]]; rewrite E in H; eauto.
  - intros w d Gw Hw. specialize (oi_val0 _ _ Gw Hw). rewrite get_set.
    destruct (keyb_dec (vkey v) (vkey w)) as [[E Q]|[E Q]]; rewrite E; auto.
    apply vkey_inj in Q. subst w. rewrite N in oi_val0. auto.
  - intros w x Hw Dw. rewrite get_set in Hw.
    destruct (keyb_dec (vkey v) (vkey w)) as [[E Q]|[E Q]]; rewrite E in Hw; eauto. injection Hw as <-. congruence.
  - intros w x Hw Dw. rewrite get_set in Hw.
    destruct (keyb_dec (vkey v) (vkey w)) as [[E Q]|[E Q]]; rewrite E in Hw; eauto. injection Hw as <-.
    apply vkey_inj in Q. subst w. auto.
Qed.

Lemma Inv_cV : forall F T a a' s s', Inv F T a s -> OI (vw T) a' (sb s) (cV s') (sV s) ->
  (forall k c, get (cV s') k = Some c -> v_lv c < nx s) ->
  (exists c, s' = with_cV c s) -> Inv F T a' s'.
Proof. intros F T a a' s s' [] H L [c ->]. constructor; auto. Qed.

Lemma clv_set : forall F T a s k0 x, Inv F T a s -> v_lv x < nx s ->
  forall k c, get (set (cV s) k0 x) k = Some c -> v_lv c < nx s.
Proof.
  intros F T a s k0 x I L k c H. rewrite get_set in H. destruct (keyb k0 k).
  - injection H as <-. auto.
  - eapply (iv_clv _ _ _ _ I); eauto.
Qed.
Lemma vw_lt : forall F T a s v l r, Inv F T a s -> vw T v = Some (Some l, r) -> l < nx s.
Proof.
  intros F T a s v l r I H. apply vw_link in H. destruct (link_at_F _ _ _ _ _ _ (iv_n _ _ _ _ I) H) as [->|HF].
  - apply (ni_lvn _ _ _ _ _ _ _ (iv_n _ _ _ _ I)).
  - apply (ni_Fn _ _ _ _ _ _ _ (iv_n _ _ _ _ I)); auto.
Qed.

Lemma fro_cV : forall s k x, (forall c, get (cV s) k = Some c -> v_dat x = v_dat c) ->
  fro s (with_cV (set (cV s) k x) s).
Proof.
  intros. constructor; cbn; auto; try lia. intros k0 c Hc. rewrite get_set.
  destruct (keyb_dec k k0) as [[E <-]|[E Q]]; rewrite E; eauto.
Qed.

Lemma require_stable_ok : forall F T a s v r s', Inv F T a s -> good_vad v -> require_stable v s = (r, s') ->
  Inv F T a s' /\ fr s s' /\ r <> Bad /\ (r = Ok tt -> vw T v <> None).
Proof.
  intros F T a s v r s' I G H. unfold require_stable, bind at 1 in H.
  destruct (stage_spmaps CUR v s) as [rs ss] eqn:E.
  destruct (stage_spmaps_ok F T s CUR v rs ss (iv_n _ _ _ _ I) (iv_b _ _ _ _ I) (good_range v G) E) as (T1 & W1 & N1 & O1).
  assert (T1 = T) by (destruct W1 as (_ & _ & _ & Q); auto). subst T1.
  assert (I1 := Inv_walk _ _ _ _ _ _ _ I W1). destruct W1 as (NI1 & F1 & _ & _).
  destruct rs as [l| |]; [|injection H as <- <-; split; [auto|]; split; [auto|]; split; congruence|congruence].
  unfold bind, gets in H. pose proof (allocated_ok _ _ _ _ _ _ NI1 (O1 l eq_refl)) as AL.
  destruct (allocated ss l v); injection H as <- <-; (split; [auto|]; split; [auto|]; split; [congruence|]).
  - intros _. apply AL. auto.
  - discriminate.
Qed.

Lemma resolve_leaf_cur : forall F T a s v r s', Inv F T a s -> good_vad v -> resolve_leaf CUR v s = (r, s') ->
  Inv F T a s' /\ fr s s' /\ r <> Bad /\ (forall l, r = Ok l -> node_at T s' CUR (lkey v) l).
Proof.
  intros F T a s v r s' I G H.
  destruct (resolve_leaf_ok F T s CUR v r s' (iv_n _ _ _ _ I) (iv_b _ _ _ _ I) (good_range v G) H) as (T1 & W1 & N1 & O1).
  assert (T1 = T) by (destruct W1 as (_ & _ & _ & Q); auto). subst T1.
  assert (I1 := Inv_walk _ _ _ _ _ _ _ I W1). destruct W1 as (NI1 & F1 & _ & _). auto.
Qed.

Lemma Inv_oF : forall F T a s f, Inv F T a s -> Inv F T a (with_oF f s).
Proof. intros F T a s f []. constructor; auto. Qed.

Lemma load_inv : forall F T a s v l r d s',
  Inv F T a s -> good_vad v -> vw T v = Some (Some l, r) -> get (cV s) (vkey v) = None ->
  load l r v s = (Ok d, s') -> s' = s /\ (forall d', f_cell a v = Val d' -> d = d').
Proof.
  intros F T a s v l r d s' I G HW N H. destruct (load_ok _ _ _ _ _ _ H) as (-> & _ & L). split; auto.
  intros d' C. pose proof (oi_val _ _ _ _ _ (iv_o _ _ _ _ I) _ _ G C) as V. rewrite N in V.
  destruct V as (l' & r' & E1 & E2). rewrite HW in E1. injection E1 as <- <-. specialize (L _ E2). congruence.
Qed.

Lemma stage_cur_ok : forall F T a s v r s', Inv F T a s -> good_vad v -> stage_cur v s = (r, s') ->
  Inv F T a s' /\ fro s s' /\ r <> Bad /\ (r = Ok tt -> get (cV s') (vkey v) <> None).
Proof.
  intros F T a s v r s' I G H. unfold stage_cur, bind at 1 in H. unfold get_cv, gets at 1 in H.
  destruct (get (cV s) (vkey v)) as [c|] eqn:E.
  { injection H as <- <-. split; [auto|]. split; [apply fro_refl|]. split; congruence. }
  unfold bind at 1 in H. destruct (require_stable v s) as [r1 s1] eqn:E1.
  destruct (require_stable_ok _ _ _ _ _ _ _ I G E1) as (I1 & F1 & N1 & O1).
  destruct r1 as [[]| |]; [|injection H as <- <-; split; [auto|]; split; [apply fro_fr; auto|]; split; congruence|congruence].
  specialize (O1 eq_refl). unfold bind at 1 in H. destruct (resolve_leaf CUR v s1) as [r2 s2] eqn:E2.
  destruct (resolve_leaf_cur _ _ _ _ _ _ _ I1 G E2) as (I2 & F2 & N2 & O2).
  assert (F02 : fr s s2) by (eapply fr_trans; eauto).
  destruct r2 as [l| |]; [|injection H as <- <-; split; [auto|]; split; [apply fro_fr; auto|]; split; congruence|congruence].
  unfold bind at 1 in H. destruct (llink_of l v s2) as [r3 s3] eqn:E3.
  destruct (llink_of_ok _ _ _ _ _ _ _ _ (iv_n _ _ _ _ I2) (O2 l eq_refl) E3) as (-> & N3 & O3 & _).
  destruct r3 as [lr| |]; [|injection H as <- <-; split; [auto|]; split; [apply fro_fr; auto|]; split; congruence|congruence].
  specialize (O3 lr eq_refl). apply (vw_link2 _ _ _ O1) in O3.
  unfold bind at 1 in H. destruct (may_fail_cases s2) as [f [Q|Q]]; rewrite Q in H.
  2: { injection H as <- <-. split; [apply Inv_oF; auto|].
       split; [eapply fro_trans; [apply fro_fr; exact F02|apply fro_fr, fr_oF]|]. split; congruence. }
  assert (I4 := Inv_oF _ _ _ _ f I2).
  assert (C4 : get (cV (with_oF f s2)) (vkey v) = None) by (cbn; destruct F02; congruence).
  unfold bind at 1 in H. destruct (load (fst lr) (snd lr) v (with_oF f s2)) as [r5 s5] eqn:E5.
  assert (F04 : fro s (with_oF f s2)) by (eapply fro_trans; [apply fro_fr; exact F02|apply fro_fr, fr_oF]).
  destruct (load_ok _ _ _ _ _ _ E5) as (-> & N5 & _).
  destruct r5 as [d| |]; [|injection H as <- <-; split; [auto|]; split; [auto|]; split; congruence|congruence].
  destruct (load_inv _ _ _ _ _ _ _ _ _ I4 G O3 C4 E5) as [_ V].
  unfold set_cv, mod_st in H. injection H as <- <-.
  split; [|split; [|split; [congruence|]]].
  - eapply Inv_cV; [exact I4| |cbn; apply (clv_set _ _ _ _ _ _ I4); cbn; eapply vw_lt; eauto|eexists; reflexivity]. cbn. apply OI_add; auto.
    + exact (iv_o _ _ _ _ I4).
    + cbn. intros Q0. rewrite O3, Q0. reflexivity.
  - eapply fro_trans; [exact F04|]. apply (fro_cV (with_oF f s2)). intros c0 Hc. congruence.
  - intros _. cbn. rewrite get_set_same. congruence.
Qed.

(* ---- marking dirty ---- *)

Definition dirtied (c : cv) : cv := mkCv (v_dat c) (v_lv c) (v_riv c) true.
Lemma redirty_ok : forall ws s r s', redirty ws s = (r, s') ->
  r = Ok tt /\ (exists cv_, s' = with_cV cv_ s) /\
  (forall k, (exists w, In w ws /\ k = vkey w) -> get (cV s') k = option_map dirtied (get (cV s) k)) /\
  (forall k, (forall w, In w ws -> k <> vkey w) -> get (cV s') k = get (cV s) k).
Proof.
  induction ws as [|w ws IH]; intros s r s' H.
  - injection H as <- <-. split; auto. split; [exists (cV s); destruct s; auto|]. split; auto.
    intros k (w & [] & _).
  - cbn [redirty] in H. unfold bind, get_cv, gets in H.
    assert (X : exists s1, redirty ws s1 = (r, s') /\ (exists cv_, s1 = with_cV cv_ s) /\
       get (cV s1) (vkey w) = option_map dirtied (get (cV s) (vkey w)) /\
       (forall k, k <> vkey w -> get (cV s1) k = get (cV s) k)).
    { destruct (get (cV s) (vkey w)) as [c|] eqn:E.
      - unfold set_cv, mod_st in H. eexists. split; [exact H|]. split; [eexists; reflexivity|]. cbn.
        rewrite get_set_same. split; auto. intros k Hk. apply get_set_other. auto.
      - unfold ret in H. exists s. split; auto. split; [exists (cV s); destruct s; auto|]. split; auto. }
    destruct X as (s1 & H1 & (cv1 & ->) & A & B). destruct (IH _ _ _ H1) as (-> & (cv2 & ->) & C & D).
    split; auto. split; [exists cv2; destruct s; auto|]. cbn [cV with_cV] in *. split.
    + intros k (w' & [<-|Hin] & ->).
      * assert (DD : (exists w', In w' ws /\ vkey w = vkey w') \/ (forall w', In w' ws -> vkey w <> vkey w')).
        { destruct (in_dec (list_eq_dec Z.eq_dec) (vkey w) (map vkey ws)) as [Q|Q].
          - apply in_map_iff in Q as (w' & Q1 & Q2). left. eauto.
          - right. intros w' Hw Q1. apply Q. apply in_map_iff. eauto. }
        destruct DD as [DD|DD].
        -- rewrite (C _ DD), A. destruct (get (cV s) (vkey w)); auto.
        -- rewrite (D _ DD), A. auto.
      * rewrite C by eauto. destruct (keyb_dec (vkey w') (vkey w)) as [[_ Q]|[_ Q]].
        -- rewrite Q, A. destruct (get (cV s) (vkey w)); auto.
        -- rewrite B by auto. auto.
    + intros k Hk. rewrite D by (intros; apply Hk; right; auto). apply B. apply Hk. left; auto.
Qed.

(* On the error path: things are marked dirty that are not one's own yet. *)
Lemma redirty_fail : forall F T a s ws r s', Inv F T a s -> redirty ws s = (r, s') ->
  r = Ok tt /\ Inv F T (fail a) s' /\ fro s s'.
Proof.
  intros F T a s ws r s' I H. destruct (redirty_ok _ _ _ _ H) as (-> & (cv_ & ->) & A & B). split; auto.
  cbn [cV with_cV] in *.
  assert (X : forall k c, get cv_ k = Some c -> exists c0, get (cV s) k = Some c0 /\ v_dat c = v_dat c0 /\
              v_lv c = v_lv c0 /\ v_riv c = v_riv c0 /\ (v_dirty c0 = true -> v_dirty c = true)).
  { intros k c Hc. destruct (in_dec (list_eq_dec Z.eq_dec) k (map vkey ws)) as [Q|Q].
    - apply in_map_iff in Q as (w & Q1 & Q2). rewrite A in Hc by eauto. destruct (get (cV s) k) as [c0|]; [|discriminate].
      injection Hc as <-. exists c0. auto.
    - rewrite B in Hc. { eauto 10. } intros w Hw ->. apply Q. apply in_map; auto. }
  assert (Y : forall k c, get (cV s) k = Some c -> exists c', get cv_ k = Some c' /\ v_dat c' = v_dat c /\ (v_dirty c = true -> v_dirty c' = true)).
  { intros k c Hc. destruct (in_dec (list_eq_dec Z.eq_dec) k (map vkey ws)) as [Q|Q].
    - apply in_map_iff in Q as (w & Q1 & Q2). rewrite A by eauto. rewrite Hc. cbn. eauto.
    - rewrite B. { eauto. } intros w Hw ->. apply Q. apply in_map; auto. }
  split.
  - eapply Inv_cV; [exact I| | |eexists; reflexivity]; cbn.
    2: { intros k c Hc. destruct (X _ _ Hc) as (c0 & Hc0 & _ & E & _). rewrite E. eapply (iv_clv _ _ _ _ I); eauto. }
    destruct (iv_o _ _ _ _ I). constructor; auto.
    + intros k c Hc. destruct (X _ _ Hc) as (c0 & Hc0 & _). eauto.
    + intros v d G Hv. specialize (oi_val0 _ _ G Hv). destruct (get (cV s) (vkey v)) as [c|] eqn:E.
      * destruct (Y _ _ E) as (c' & -> & E1 & E2). destruct oi_val0 as [P [Q|[Q R]]]; split; try congruence; auto.
      * destruct (get cv_ (vkey v)) as [c|] eqn:E2; auto. destruct (X _ _ E2) as (c0 & Q & _). congruence.
    + intros v c Hc L. destruct (X _ _ Hc) as (c0 & Hc0 & E1 & E2 & E3 & _). rewrite E3. eapply oi_llink0; eauto. congruence.
  - constructor; cbn; auto; try lia. intros k c Hc. destruct (Y _ _ Hc) as (c' & -> & E1 & _). eauto.
Qed.
