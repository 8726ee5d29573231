(* Copy-on-write: writing out, forgetting, remounting and taking a snapshot keep
   the invariant. *)
From Verif Require Import Base AddrModel CowModel CowSpec CowProofs CowWalk CowObj CowCopy CowOps.
Open Scope Z_scope.

(* Map and object stores of one's own volume change; nothing else does. *)
Record flsh (s s' : st) : Prop := mkFlsh {
  fl_nx : nx s <= nx s'; fl_lv : lv s' = lv s; fl_sid : sid s' = sid s; fl_boot : boot s' = boot s }.
Lemma flsh_refl : forall s, flsh s s. Proof. intros; constructor; auto; lia. Qed.
Lemma flsh_trans : forall a b c, flsh a b -> flsh b c -> flsh a c.
Proof. intros a b c [] []. constructor; try congruence; lia. Qed.
Lemma flsh_fro : forall s s', fro s s' -> flsh s s'. Proof. intros s s' []. constructor; auto. Qed.

Lemma write_v : forall F T a s v c, Inv F T a s -> get (cV s) (vkey v) = Some c -> v_lv c = lv s ->
  Inv F T a (with_cV (set (cV s) (vkey v) (mkCv (v_dat c) (v_lv c) (v_riv c) false))
             (with_sV (set (sV s) (v_lv c :: vkey v) (v_riv c, v_dat c)) s)).
Proof.
  intros F T a s v c I Hc L. pose proof (iv_o _ _ _ _ I) as O.
  assert (W := oi_llink _ _ _ _ _ O _ _ Hc L).
  assert (G : good_vad v). { destruct (oi_keys _ _ _ _ _ O _ _ Hc) as (w & E & G & _). apply vkey_inj in E. subst; auto. }
  constructor; cbn; [exact (iv_n _ _ _ _ I)| |apply (iv_b _ _ _ _ I)|apply (iv_boot _ _ _ _ I)|apply (iv_sid _ _ _ _ I)|].
  2: { apply (clv_set _ _ _ _ _ _ I). cbn. eapply (iv_clv _ _ _ _ I); eauto. }
  unfold OIs. cbn [sb cV sV with_cV with_sV]. destruct O.
  assert (ST : forall w d, w <> v -> stored (vw T) (sV s) w d -> stored (vw T) (set (sV s) (v_lv c :: vkey v) (v_riv c, v_dat c)) w d).
  { intros w d N (l & r & A & B). exists l, r. split; auto. rewrite get_set_other; auto. intros Q. apply N.
    injection Q as Q1 Q2. apply vkey_inj. unfold vkey. congruence. }
  constructor.
  - intros k x H. rewrite get_set in H. destruct (keyb_dec (vkey v) k) as [[E <-]|[E Q]]; rewrite E in H; eauto.
  - auto.
  - intros w d Gw Hw. pose proof (oi_val _ _ Gw Hw) as V. rewrite get_set.
    destruct (keyb_dec (vkey v) (vkey w)) as [[E Q]|[E Q]]; rewrite E.
    + apply vkey_inj in Q. subst w. rewrite Hc in V. destruct V as [V _]. cbn. split; auto. left.
      exists (lv s), (v_riv c). split; [exact W|]. rewrite <- L, get_set_same. congruence.
    + assert (N : w <> v) by congruence. destruct (get (cV s) (vkey w)); auto.
      destruct V as [V1 [V2|[V2 V3]]]; split; auto.
  - intros w x Hw D. rewrite get_set in Hw. destruct (keyb_dec (vkey v) (vkey w)) as [[E Q]|[E Q]]; rewrite E in Hw; eauto.
    injection Hw as <-. discriminate.
  - intros w x Hw D. rewrite get_set in Hw. destruct (keyb_dec (vkey v) (vkey w)) as [[E Q]|[E Q]]; rewrite E in Hw; eauto.
    injection Hw as <-. apply vkey_inj in Q. subst w. auto.
  - auto.
Qed.

Lemma op_flush_v_ok : forall F T a s v r s', Inv F T a s -> op_flush_v v s = (r, s') ->
  Inv F T a s' /\ flsh s s' /\ (r = Bad -> f_err a = true).
Proof.
  intros F T a s v r s' I H. unfold op_flush_v, bind at 1, get_cv at 1, gets at 1 in H.
  destruct (get (cV s) (vkey v)) as [c|] eqn:Hc.
  2: { injection H as <- <-. split; auto. split; [apply flsh_refl|discriminate]. }
  destruct (v_dirty c) eqn:D.
  2: { injection H as <- <-. split; auto. split; [apply flsh_refl|discriminate]. }
  unfold bind at 1, gets at 1 in H.
  assert (G : good_vad v).
  { destruct (oi_keys _ _ _ _ _ (iv_o _ _ _ _ I) _ _ Hc) as (w & E & G & _). apply vkey_inj in E. subst; auto. }
  assert (FIN : forall s1 c1, Inv F T a s1 -> fro s s1 -> get (cV s1) (vkey v) = Some c1 -> v_lv c1 = lv s ->
    (may_fail ;;; mod_st (fun s => with_sV (set (sV s) (v_lv c1 :: vkey v) (v_riv c1, v_dat c1)) s) ;;;
       set_cv v (mkCv (v_dat c1) (v_lv c1) (v_riv c1) false)) s1 = (r, s') ->
    Inv F T a s' /\ flsh s s' /\ (r = Bad -> f_err a = true)).
  { intros s1 c1 I1 F1 H1 L1 Q. unfold bind at 1 in Q. destruct (may_fail_cases s1) as [f [E|E]]; rewrite E in Q.
    - unfold bind, mod_st, set_cv in Q. injection Q as <- <-. split; [|split; [|discriminate]].
      + assert (I2 := Inv_oF _ _ _ _ f I1).
        apply (write_v _ _ _ (with_oF f s1) v c1 I2 H1). rewrite L1. symmetry. apply (fo_lv _ _ F1).
      + eapply flsh_trans; [apply flsh_fro; exact F1|]. constructor; cbn; auto; lia.
    - injection Q as <- <-. split; [apply Inv_oF; auto|]. split; [|discriminate].
      eapply flsh_trans; [apply flsh_fro; exact F1|]. constructor; cbn; auto; lia. }
  unfold bind at 1 in H. destruct (v_lv c =? lv s) eqn:L.
  - unfold ret at 1, bind at 1, get_cv at 1, gets at 1 in H. rewrite Hc, L in H. eapply (FIN s c); eauto; [apply fro_refl|lia].
  - unfold bind at 1 in H. destruct (resolve_inspect CUR false v s) as [r1 s1] eqn:E1.
    destruct (resolve_cur_ok _ _ _ _ _ _ _ _ I G E1) as (I1 & F1 & N1 & O1).
    destruct r1 as [lr| |]; [|injection H as <- <-; split; [auto|]; split; [apply flsh_fro, fro_fr; auto|discriminate]|congruence].
    specialize (O1 lr eq_refl). destruct (upd_llink v lr s1) as [r2 s2] eqn:E2. destruct lr as [l0 r0]. cbn [fst snd] in O1.
    assert (C1 : get (cV s1) (vkey v) = Some c) by (rewrite (fr_cV _ _ F1); auto).
    assert (V1 : vw T v = Some (Some l0, r0)) by (apply vw_link2; auto; eapply cached_alloc; eauto).
    destruct (upd_llink_ok _ _ _ _ _ _ _ _ _ _ I1 G C1 V1 E2) as (-> & I2 & F2 & c2 & C2 & D2 & L2 & _ & DD).
    assert (F02 : fro s s2) by (eapply fro_trans; [apply fro_fr|]; eauto).
    unfold bind at 1, get_cv at 1, gets at 1 in H. rewrite C2 in H. destruct (v_lv c2 =? lv s) eqn:L3.
    + eapply (FIN s2 c2); eauto; lia.
    + injection H as <- <-. split; [auto|]. split; [apply flsh_fro; auto|]. intros _.
      assert (v_dirty c2 = true) by congruence.
      destruct (oi_dirty _ _ _ _ _ (iv_o _ _ _ _ I2) _ _ C2 H) as [(r1 & M)|Q]; auto. exfalso.
      rewrite V1 in M. injection M as M1 M2. pose proof (fo_lv _ _ F02) as Q. unfold lv in *. lia.
Qed.

Lemma op_flush_u_ok : forall F T a s lk r s', Inv F T a s -> op_flush_u lk s = (r, s') ->
  Inv F T a s' /\ flsh s s' /\ r <> Bad.
Proof.
  intros F T a s lk r s' I H. unfold op_flush_u, bind at 1, gets at 1 in H.
  destruct (get (cU s) lk) as [c|] eqn:Hc.
  2: { injection H as <- <-. split; auto. split; [apply flsh_refl|discriminate]. }
  destruct (u_dirty c) eqn:D.
  2: { injection H as <- <-. split; auto. split; [apply flsh_refl|discriminate]. }
  unfold bind at 1, gets at 1 in H. pose proof (iv_n _ _ _ _ I) as N.
  destruct (ni_key _ _ _ _ _ _ _ N _ _ Hc) as (l & k & -> & Ln & Ld & Lx). specialize (Ld D).
  destruct (Lx Ld) as (x & X1 & X2). replace (l =? lv s) with true in H by (unfold lv; lia).
  unfold bind at 1 in H. destruct (may_fail_cases s) as [f [E|E]]; rewrite E in H.
  2: { injection H as <- <-. split; [apply Inv_oF; auto|]. split; [constructor; cbn; auto; lia|discriminate]. }
  unfold mod_st in H. injection H as <- <-. split; [|split; [constructor; cbn; auto; lia|discriminate]].
  constructor; cbn; [|exact (iv_o _ _ _ _ I)|apply (iv_b _ _ _ _ I)|apply (iv_boot _ _ _ _ I)|apply (iv_sid _ _ _ _ I)|apply (iv_clv _ _ _ _ I)].
  unfold NIs. cbn [nx sb cU uam sU with_cU with_sU with_oF].
  pose proof (ni_cell _ _ _ _ _ _ _ N _ _ X1) as CC. unfold cellok in CC. rewrite X2, <- Ld, Hc in CC.
  destruct CC as (C1 & C2 & _).
  unfold NIs in N. destruct N. constructor; auto.
  - intros lk c0 Hg. rewrite get_set in Hg. destruct (keyb_dec (l :: k) lk) as [[Q <-]|[Q R]]; rewrite Q in Hg; [|eauto].
    injection Hg as <-. exists l, k. split; [auto|]. split; [auto|]. split; auto.
  - intros k0 y Hy. unfold cellok. rewrite !get_set. destruct (keyb_dec (l :: k) (t_l y :: k0)) as [[Q R]|[Q R]]; rewrite Q.
    + cbn. injection R as R1 R2. subst k0. assert (y = x) by congruence. subst y. rewrite <- C1, <- C2. auto.
    + apply ni_cell; auto.
Qed.

Lemma op_flush_sb_ok : forall F T a s r s', Inv F T a s -> op_flush_sb s = (r, s') ->
  Inv F T a s' /\ flsh s s' /\ r <> Bad /\ (r = Ok tt -> get (sS s') [sid s'] = Some (sb s')).
Proof.
  intros F T a s r s' I H. unfold op_flush_sb, bind in H. destruct (may_fail_cases s) as [f [E|E]]; rewrite E in H.
  2: { injection H as <- <-. split; [apply Inv_oF; auto|]. split; [constructor; cbn; auto; lia|split; discriminate]. }
  unfold mod_st in H. injection H as <- <-.
  split. { destruct I. constructor; auto. } split; [constructor; cbn; auto; lia|]. split; [discriminate|].
  intros _. cbn. apply get_set_same.
Qed.

Lemma op_evict_v_ok : forall F T a s v r s', Inv F T a s -> op_evict_v v s = (r, s') ->
  Inv F T a s' /\ r = Ok tt.
Proof.
  intros F T a s v r s' I H. unfold op_evict_v, mod_st in H. injection H as <- <-. split; auto.
  destruct (get (cV s) (vkey v)) as [c|] eqn:Hc; auto. destruct (v_dirty c) eqn:D; auto.
  assert (K : forall k x, get (del (cV s) (vkey v)) k = Some x -> get (cV s) k = Some x /\ k <> vkey v).
  { intros k x H. rewrite get_del in H. destruct (keyb_dec (vkey v) k) as [[E Q]|[E Q]]; rewrite E in H; [discriminate|]. auto. }
  eapply Inv_cV; [exact I| | |eexists; reflexivity]; cbn.
  2: { intros k x H. apply K in H as [H _]. eapply (iv_clv _ _ _ _ I); eauto. }
  destruct (iv_o _ _ _ _ I). constructor; auto.
  - intros k x H. apply K in H as [H _]. eauto.
  - intros w d G Hw. specialize (oi_val _ _ G Hw). rewrite get_del.
    destruct (keyb_dec (vkey v) (vkey w)) as [[E Q]|[E Q]]; rewrite E; auto.
    rewrite <- Q, Hc in oi_val. apply vkey_inj in Q. subst w. destruct oi_val as [_ [V|[V _]]]; [auto|congruence].
  - intros w x H. apply K in H as [H _]. eauto.
  - intros w x H. apply K in H as [H _]. eauto.
Qed.

Lemma op_evict_u_ok : forall F T a s lk r s', Inv F T a s -> op_evict_u lk s = (r, s') ->
  Inv F T a s' /\ r = Ok tt.
Proof.
  intros F T a s lk r s' I H. unfold op_evict_u, mod_st in H. injection H as <- <-. split; auto.
  destruct (get (cU s) lk) as [c|] eqn:Hc; auto. destruct (u_dirty c) eqn:D; auto.
  constructor; cbn; [|exact (iv_o _ _ _ _ I)|apply (iv_b _ _ _ _ I)|apply (iv_boot _ _ _ _ I)|apply (iv_sid _ _ _ _ I)|apply (iv_clv _ _ _ _ I)].
  pose proof (iv_n _ _ _ _ I) as N. unfold NIs in *. cbn [nx sb cU uam sU with_cU]. destruct N. constructor; auto.
  - intros k x H. rewrite get_del in H. destruct (keyb lk k); [discriminate|]. eauto.
  - intros k x Hx. specialize (ni_cell _ _ Hx). unfold cellok in *. rewrite get_del.
    destruct (keyb_dec lk (t_l x :: k)) as [[E Q]|[E Q]]; rewrite E; auto.
    rewrite <- Q, Hc in ni_cell. rewrite <- Q. apply ni_cell; auto.
Qed.

Lemma op_drop_lru_ok : forall F T a s r s', Inv F T a s -> op_drop_lru s = (r, s') -> Inv F T a s' /\ r = Ok tt.
Proof.
  intros F T a s r s' I H. unfold op_drop_lru, mod_st in H. injection H as <- <-. split; auto.
  destruct I. constructor; auto. unfold NIs in *. cbn. eapply NI_uam; [exact iv_n|].
  intros k l Q. apply uam_find_refresh in Q. eapply ni_uam; eauto.
Qed.

Lemma Inv_uam0 : forall F T a s, Inv F T a s -> Inv F T a (with_uam [] s).
Proof.
  intros F T a s []. constructor; auto. unfold NIs in *. cbn. eapply NI_uam; [exact iv_n|]. intros k l Q. discriminate.
Qed.

(* ---- everything ---- *)

Lemma flush_vs_ok : forall F T a ks s r s', Inv F T a s -> flush_vs ks s = (r, s') ->
  Inv F T a s' /\ flsh s s' /\ (r = Bad -> f_err a = true).
Proof.
  induction ks as [|k ks IH]; intros s r s' I H; cbn [flush_vs] in H.
  - injection H as <- <-. split; auto. split; [apply flsh_refl|discriminate].
  - unfold bind in H.
    assert (X : exists r1 s1, (match k with [vs; off] => op_flush_v (vs, off) | _ => ret tt end) s = (r1, s1) /\
      Inv F T a s1 /\ flsh s s1 /\ (r1 = Bad -> f_err a = true)).
    { destruct k as [|k1 [|k2 [|k3 k]]]; try (do 2 eexists; split; [reflexivity|split; [auto|split; [apply flsh_refl|discriminate]]]; fail).
      destruct (op_flush_v (k1, k2) s) as [r1 s1] eqn:E. do 2 eexists. split; [reflexivity|]. eapply op_flush_v_ok; eauto. }
    destruct X as (r1 & s1 & E & I1 & F1 & B1). rewrite E in H. destruct r1 as [u| |].
    + destruct (IH _ _ _ I1 H) as (I2 & F2 & B2). split; auto. split; auto. eapply flsh_trans; eauto.
    + injection H as <- <-. split; [auto|split; [auto|discriminate]].
    + injection H as <- <-. split; auto.
Qed.

Lemma flush_us_ok : forall F T a ks s r s', Inv F T a s -> flush_us ks s = (r, s') ->
  Inv F T a s' /\ flsh s s' /\ r <> Bad.
Proof.
  induction ks as [|k ks IH]; intros s r s' I H; cbn [flush_us] in H.
  - injection H as <- <-. split; auto. split; [apply flsh_refl|discriminate].
  - unfold bind in H. destruct (op_flush_u k s) as [r1 s1] eqn:E.
    destruct (op_flush_u_ok _ _ _ _ _ _ _ I E) as (I1 & F1 & B1). destruct r1 as [u| |].
    + destruct (IH _ _ _ I1 H) as (I2 & F2 & B2). split; auto. split; auto. eapply flsh_trans; eauto.
    + injection H as <- <-. split; [auto|split; [auto|discriminate]].
    + congruence.
Qed.

Definition clean (s : st) : Prop :=
  (forall k c, get (cU s) k = Some c -> u_dirty c = false) /\ (forall k c, get (cV s) k = Some c -> v_dirty c = false).
Lemma all_clean_clean : forall s, all_clean s = true -> clean s.
Proof.
  intros s H. unfold all_clean in H. apply andb_true_iff in H as [A B]. rewrite forallb_forall in A, B.
  split; intros k c G; assert (G2 := G); apply get_in in G2; [specialize (A _ G2)|specialize (B _ G2)]; cbn [fst] in *;
  rewrite G in *; destruct (_ c); auto.
Qed.

Lemma op_flush_ok : forall F T a s r s', Inv F T a s -> op_flush s = (r, s') ->
  Inv F T a s' /\ flsh s s' /\ (r = Bad -> f_err a = true) /\
  (r = Ok tt -> clean s' /\ get (sS s') [sid s'] = Some (sb s')).
Proof.
  intros F T a s r s' I H. unfold op_flush, bind at 1, gets at 1 in H. unfold bind at 1 in H.
  destruct (flush_vs _ s) as [r1 s1] eqn:E1. destruct (flush_vs_ok _ _ _ _ _ _ _ I E1) as (I1 & F1 & B1).
  destruct r1 as [u| |]; [|injection H as <- <-; split; [auto|split; [auto|split; discriminate]]
                          |injection H as <- <-; split; [auto|split; [auto|split; [auto|discriminate]]]].
  unfold bind at 1, gets at 1 in H. unfold bind at 1 in H.
  destruct (flush_us _ s1) as [r2 s2] eqn:E2. destruct (flush_us_ok _ _ _ _ _ _ _ I1 E2) as (I2 & F2 & B2).
  assert (F02 : flsh s s2) by (eapply flsh_trans; eauto).
  destruct r2 as [u2| |]; [|injection H as <- <-; split; [auto|split; [auto|split; discriminate]]|congruence].
  unfold bind at 1 in H. destruct (op_flush_sb s2) as [r3 s3] eqn:E3.
  destruct (op_flush_sb_ok _ _ _ _ _ _ I2 E3) as (I3 & F3 & B3 & S3).
  assert (F03 : flsh s s3) by (eapply flsh_trans; eauto).
  destruct r3 as [[]| |]; [|injection H as <- <-; split; [auto|split; [auto|split; discriminate]]|congruence].
  unfold bind, gets in H. destruct (all_clean s3) eqn:AC; injection H as <- <-;
  (split; [auto|]; split; [auto|]; split; [discriminate|]); intros Q; [|discriminate].
  split; auto. apply all_clean_clean; auto.
Qed.

Lemma Inv_err : forall F T a e s, Inv F T a s -> clean s -> Inv F T (mkFs (f_cell a) (f_own a) e) s.
Proof.
  intros F T a e s [] [_ C]. constructor; auto. unfold OIs in *. destruct iv_o. constructor; auto.
  intros v c H D. specialize (C _ _ H). congruence.
Qed.

(* Starting afresh from what is stored. *)
Lemma Inv_cold : forall F T a s, Inv F T a s -> clean s -> Inv F T a (with_cV [] (with_uam [] (with_cU [] s))).
Proof.
  intros F T a s I [CU CV]. constructor; cbn; [| |apply (iv_b _ _ _ _ I)|apply (iv_boot _ _ _ _ I)|apply (iv_sid _ _ _ _ I)|discriminate].
  - pose proof (iv_n _ _ _ _ I) as N. unfold NIs in *. cbn [nx sb cU uam sU with_cU with_uam with_cV]. destruct N.
    constructor; auto.
    + discriminate.
    + intros k x Hx. specialize (ni_cell _ _ Hx). unfold cellok in *. cbn [get].
      destruct (get (cU s) (t_l x :: k)) as [c|] eqn:E; auto. apply ni_cell. eauto.
    + discriminate.
  - pose proof (iv_o _ _ _ _ I) as O. unfold OIs in *. cbn [sb cV sV with_cV with_uam with_cU]. destruct O. constructor; auto.
    + discriminate.
    + intros v d G H. cbn [get]. specialize (oi_val _ _ G H). destruct (get (cV s) (vkey v)) as [c|] eqn:E; auto.
      destruct oi_val as [_ [V|[V _]]]; auto. rewrite (CV _ _ E) in V. discriminate.
    + discriminate.
    + discriminate.
Qed.

Lemma op_remount_ok : forall F T a s r s', Inv F T a s -> op_remount s = (r, s') ->
  Inv F T (next a Remount (match r with Ok _ => Ok ANone | Er => Er | Bad => Bad end)) s' /\
  lv s' = lv s /\ sid s' = sid s /\ (r = Bad -> f_err a = true).
Proof.
  intros F T a s r s' I H. unfold op_remount, bind at 1 in H. destruct (op_flush s) as [r1 s1] eqn:E1.
  destruct (op_flush_ok _ _ _ _ _ _ I E1) as (I1 & [] & B1 & S1).
  destruct r1 as [[]| |]; [|injection H as <- <-; split; [auto|]; repeat split; auto; discriminate
                          |injection H as <- <-; split; [auto|]; repeat split; auto].
  destruct (S1 eq_refl) as [C S]. unfold bind, gets in H. rewrite (iv_boot _ _ _ _ I1), S in H.
  unfold mod_st in H. injection H as <- <-. cbn [next]. split; [|cbn; rewrite (iv_boot _ _ _ _ I1); repeat split; auto; discriminate].
  assert (I2 := Inv_err _ _ _ false _ (Inv_cold _ _ _ _ I1 C)). 
  assert (C2 : clean (with_cV [] (with_uam [] (with_cU [] s1)))) by (split; intros; discriminate).
  specialize (I2 C2). pose proof (iv_boot _ _ _ _ I1) as BT. pose proof (iv_sid _ _ _ _ I1) as SD.
  destruct I2. constructor; auto. cbn. rewrite BT. exact SD.
Qed.

(* ---- snapshots ---- *)

(* Everything so far belongs to nobody any more; a fresh volume is written from now on. *)
Lemma Inv_clone : forall F T a s L n', Inv F T a s -> clean s -> nx s <= L < n' ->
  forall cu_ cv_ i, (cu_ = cU s \/ cu_ = []) -> (cv_ = cV s \/ cv_ = []) -> i < n' -> forall d ss f,
  Inv (fun l => F l \/ l = lv s) T (copy a)
    (mkSt (ev s) f [] n' (sU s) (sV s) ss cu_ [] cv_ (sb_clone (sb s) L) d i i).
Proof.
  intros F T a s L n' I [CU CV] HL cu_ cv_ i HU HV Hi d ss f.
  assert (GU : forall k c, get cu_ k = Some c -> get (cU s) k = Some c) by (destruct HU as [-> | ->]; auto; discriminate).
  assert (GV : forall k c, get cv_ k = Some c -> get (cV s) k = Some c) by (destruct HV as [-> | ->]; auto; discriminate).
  pose proof (iv_n _ _ _ _ I) as N. unfold NIs in N.
  constructor; cbn; auto.
  - unfold NIs. cbn [nx sb cU uam sU]. destruct N. constructor; auto; cbn [sb_clone sb_lv sb_main].
    + intros [Q|Q]; [specialize (ni_Fn _ Q); lia|]. unfold lv in Q. lia.
    + lia.
    + intros l [Q|Q]; [specialize (ni_Fn _ Q); lia|]. unfold lv in Q. lia.
    + intros k x Hx. right. destruct (ni_l _ _ Hx); auto.
    + intros vs p x Hx j. destruct (ni_leaf _ _ _ Hx j) as (l & Q & [R|R]); exists l; auto.
    + intros vs h p x Hx Q. exfalso. destruct (ni_l _ _ Hx) as [R|R]; [lia|]. specialize (ni_Fn _ R). lia.
    + intros lk c Hc. apply GU in Hc. destruct (ni_key _ _ Hc) as (l & k & E1 & E2 & E3 & E4). exists l, k.
      split; [auto|]. split; [lia|]. split; [intros Q; rewrite (CU _ _ Hc) in Q; discriminate|]. intros Q; lia.
    + intros k x Hx. specialize (ni_cell _ _ Hx). unfold cellok in *.
      destruct HU as [-> | ->]; [auto|]. cbn [get]. destruct (get (cU s) (t_l x :: k)) eqn:E; auto. apply ni_cell. eauto.
    + discriminate.
  - pose proof (iv_o _ _ _ _ I) as O. unfold OIs in *. cbn [sb cV sV].
    assert (LT : forall v l r, vw T v = Some (Some l, r) -> l < nx s) by (intros; eapply vw_lt; eauto).
    destruct O. constructor; cbn [copy f_cell f_own f_err sb_clone sb_lv]; auto.
    + intros k c Hc. apply GV in Hc. eauto.
    + intros v dd G H. specialize (oi_val _ _ G H). destruct (get cv_ (vkey v)) as [c|] eqn:E.
      * apply GV in E. rewrite E in oi_val. destruct oi_val as [V1 [V2|[V2 _]]]; split; auto. rewrite (CV _ _ E) in V2. discriminate.
      * destruct (get (cV s) (vkey v)) as [c|] eqn:E2; auto.
        destruct oi_val as [V1 [V2|[V2 _]]]; auto. rewrite (CV _ _ E2) in V2. discriminate.
    + intros v c Hc D. apply GV in Hc. rewrite (CV _ _ Hc) in D. discriminate.
    + intros v c Hc D. apply GV in Hc. pose proof (iv_clv _ _ _ _ I _ _ Hc). lia.
    + discriminate.
  - intros k c Hc. apply GV in Hc. pose proof (iv_clv _ _ _ _ I _ _ Hc). lia.
Qed.

Lemma Inv_same : forall F T a s1 s2, Inv F T a s1 -> nx s2 = nx s1 -> sb s2 = sb s1 -> cU s2 = cU s1 ->
  uam s2 = uam s1 -> sU s2 = sU s1 -> cV s2 = cV s1 -> sV s2 = sV s1 -> oB s2 = oB s1 -> boot s2 = boot s1 ->
  sid s2 = sid s1 -> Inv F T a s2.
Proof.
  intros F T a s1 s2 [] E1 E2 E3 E4 E5 E6 E7 E8 E9 E10. unfold NIs, OIs in *.
  constructor; unfold NIs, OIs; rewrite ?E1, ?E2, ?E3, ?E4, ?E5, ?E6, ?E7, ?E8, ?E9, ?E10; auto.
Qed.

Lemma op_fork_ok : forall F T a s r s', Inv F T a s -> op_fork s = (r, s') ->
  (r = Bad -> f_err a = true) /\
  match r with
  | Ok alt => exists b, get (sS s') [alt] = Some b /\ nx s <= alt /\ nx s <= sb_lv b /\ nx s <= lv s' /\ nx s <= sid s' /\
              alt <> sid s' /\ sb_lv b <> lv s' /\
              let F' := fun l => F l \/ l = lv s in
              Inv F' T (copy a) s' /\
              (forall f, Inv F' T (copy a) (mkSt (ev s') f [] (nx s') (sU s') (sV s') (sS s') [] [] [] b false alt alt))
  | _ => Inv F T a s' /\ flsh s s'
  end.
Proof.
  intros F T a s r s' I H. unfold op_fork, bind at 1 in H. destruct (op_flush s) as [r1 s1] eqn:E1.
  destruct (op_flush_ok _ _ _ _ _ _ I E1) as (I1 & FL & B1 & S1).
  destruct r1 as [[]| |]; [|injection H as <- <-; split; [discriminate|auto]|injection H as <- <-; auto].
  destruct (S1 eq_refl) as [C S]. unfold bind at 1, mod_st at 1 in H. unfold bind at 1, gets at 1 in H.
  unfold bind at 1 in H. unfold clone_rebind, bind at 1 in H.
  destruct (may_fail_cases (with_uam [] s1)) as [f [E|E]]; rewrite E in H.
  2: { injection H as <- <-. split; [discriminate|]. split; [apply Inv_oF, Inv_uam0; auto|].
       eapply flsh_trans; [exact FL|]. constructor; cbn; auto; lia. }
  pose proof (fl_nx _ _ FL) as NX. pose proof (fl_lv _ _ FL) as LV.
  pose proof (iv_b _ _ _ _ I1) as OB.
  unfold bind, gets, mod_st, ret, flipB in H.
  cbn [nx sb boot uam with_ids with_sbd with_sb with_nx with_oF with_uam with_sS oB oF sS] in H. rewrite OB in H.
  cbn [nx sb boot uam with_ids with_sbd with_sb with_nx with_oF with_uam with_sS oB oF sS] in H.
  injection H as <- <-. split; [discriminate|].
  exists (sb_clone (sb s1) (nx s1 + 1)).
  cbn [nx sb boot uam with_ids with_sbd with_sb with_nx with_oF with_uam with_sS oB oF sS sid ev sU sV cU cV].
  split. { rewrite get_set_other by (intros Q; injection Q; lia). apply get_set_same. }
  split; [lia|]. cbn [sb_lv sb_clone]. split; [lia|]. 
  split; [unfold lv; cbn; lia|]. split; [lia|]. split; [lia|]. split; [unfold lv; cbn; lia|].
  cbv zeta. rewrite <- LV. split.
  - eapply Inv_same; [apply (Inv_clone F T a s1 (nx s1 + 2 + 1) (nx s1 + 2 + 2) I1 C ltac:(lia) (cU s1) (cV s1) (nx s1 + 2)
        (or_introl eq_refl) (or_introl eq_refl) ltac:(lia) false [] [])|..]; try reflexivity. exact OB.
  - intros g. apply (Inv_clone F T a s1 (nx s1 + 1) (nx s1 + 2 + 2) I1 C); auto; lia.
Qed.
