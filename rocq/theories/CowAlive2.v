(* Copy-on-write: the operations that succeed when no call below fails. *)
From Verif Require Import Base AddrModel CowModel CowSpec CowProofs CowWalk CowObj CowCopy CowOps CowChange CowFlush CowFrame CowLive CowAlive.
Open Scope Z_scope.

Lemma not_blocked : forall raw a v, ~ blocked a v -> unblocked raw a v.
Proof.
  intros raw a v B w G E1 E2 _ H. apply B. exists w. split; auto. split; auto. rewrite !slot_eq in E2. lia.
Qed.
Lemma unblocked_spoil : forall a v, unblocked false a v -> unblocked false (spoil_if (lossy a v) a v) v.
Proof.
  intros a v U w G E1 E2 E3. rewrite spoil_if_cell. destruct (vad_dec w v) as [[Q ->]|[Q N]]; rewrite Q; [|rewrite andb_false_r; auto].
  destruct (lossy a v) eqn:L; [|cbn; auto]. exfalso. unfold lossy in L. apply andb_true_iff in L as [L _].
  unfold pre_skip in E3. rewrite Q, L in E3. cbn in E3. rewrite orb_true_r in E3. discriminate.
Qed.

Lemma op_write_alive : forall F T a s rm v f d, Inv F T a s -> good_vad v -> calm (oF s) -> f_cell a v = Val d ->
  ~ blocked a v -> exists s', op_write rm v f s = (Ok tt, s').
Proof.
  intros F T a s rm v f d I G C HV NB. assert (N := val_alloc _ _ _ _ _ _ I G HV). assert (U := not_blocked false a v NB).
  assert (FIN : forall T1 a1 s1, Inv F T1 a1 s1 -> calm (oF s1) -> vw T1 v <> None -> unblocked false a1 v ->
     (isdatabk v = true \/ exists d, f_cell a1 v = Val d) ->
     exists s', (stage_vnode COW false v;;; modify v f) s1 = (Ok tt, s')).
  { intros T1 a1 s1 I1 C1 N1 U1 K. destruct (stage_vnode_alive _ _ _ _ false v I1 G C1 N1 U1 ltac:(auto)) as (s2 & E2 & C2 & OB2).
    unfold bind. rewrite E2. destruct (okm_modify v f s2 OB2 C2) as ([] & s3 & E3 & _). eauto. }
  unfold op_write. destruct rm.
  2: { unfold bind at 1. unfold ret. eapply FIN; eauto. }
  destruct (resolve_alive _ _ _ _ COW false v I G C N (fun _ => U)) as (lr & s1 & E1).
  destruct (resolve_cow_ok _ _ _ _ _ _ _ _ I G E1) as [_ (T1 & I1 & _ & _ & SA)]. change (hurt false a v) with (lossy a v) in I1.
  assert (C1 : calm (oF s1)) by (eapply calm_run; [apply (mm_resolve COW false v)|exact E1|auto]).
  destruct (calm_ok s1 C1) as (g & E2 & Cg). unfold bind at 1. unfold bind at 1. rewrite E1, E2.
  eapply FIN; [exact (Inv_oF _ _ _ _ g I1)|exact Cg|apply SA; auto|apply unblocked_spoil; auto|].
  rewrite spoil_if_cell. destruct (vad_dec v v) as [[-> _]|[_ Q]]; [|congruence].
  destruct (lossy a v) eqn:L; [|right; exists d; auto]. left. unfold lossy in L. apply andb_true_iff in L as [L _]. auto.
Qed.

Lemma op_claim_alive : forall F T a s v, Inv F T a s -> good_vad v -> calm (oF s) -> f_cell a v = Free ->
  exists s', op_claim v s = (Ok tt, s').
Proof.
  intros F T a s v I G C HV. assert (N : vw T v = None) by (eapply (oi_free _ _ _ _ _ (iv_o _ _ _ _ I)); eauto).
  unfold op_claim. destruct (require_spmaps_alive _ _ _ v (iv_n _ _ _ _ I) (iv_b _ _ _ _ I) C (good_range v G)) as (leaf & s1 & E1).
  unfold bind at 1. rewrite E1.
  destruct (require_spmaps_ok F T s v _ s1 (iv_n _ _ _ _ I) (iv_b _ _ _ _ I) (good_range v G) E1) as (T1 & W1 & _ & O1).
  specialize (O1 leaf eq_refl). assert (I1 := Inv_walk _ _ _ _ _ _ _ I W1). destruct W1 as (NI1 & _ & SW & _).
  assert (C1 : calm (oF s1)) by (eapply calm_run; [apply (mm_require_spmaps v)|exact E1|auto]).
  unfold bind at 1, gets at 1. pose proof (allocated_ok _ _ _ _ _ _ NI1 O1) as AL.
  destruct (allocated s1 leaf v). { exfalso. apply (proj1 AL eq_refl). rewrite SW. auto. }
  assert (LN : T1 (lkey v) <> None) by (destruct O1 as (x & A & _); congruence).
  destruct (resolve_leaf_live _ _ _ v NI1 (iv_b _ _ _ _ I1) C1 (good_range v G) LN) as (l2 & s2 & E2).
  unfold bind at 1. rewrite E2. destruct (resolve_leaf_cur _ _ _ _ _ _ _ I1 G E2) as (I2 & F2 & _ & O2).
  destruct (llink_alive _ _ _ _ _ _ (iv_n _ _ _ _ I2) (O2 l2 eq_refl)) as (lr & E3 & _). unfold bind at 1. rewrite E3.
  eexists. reflexivity.
Qed.

Lemma op_spawn_alive : forall F T a s v d, Inv F T a s -> good_vad v -> calm (oF s) -> f_cell a v = Free ->
  ~ blocked a v -> exists s', op_spawn v d s = (Ok tt, s').
Proof.
  intros F T a s v d I G C HV NB. destruct (op_claim_alive _ _ _ _ _ I G C HV) as (s1 & E1).
  unfold op_spawn. unfold bind at 1. rewrite E1.
  destruct (op_claim_ok _ _ _ _ _ _ _ I G E1) as (_ & T1 & I1 & _ & N1).
  assert (C1 : calm (oF s1)) by (eapply calm_run; [apply (mm_claim v)|exact E1|auto]).
  assert (U : unblocked true (put_fs a v Any false) v).
  { intros w Gw A B P. cbn. destruct (vad_dec w v) as [[Q ->]|[Q N]].
    - exfalso. unfold pre_skip in P. rewrite Q in P. cbn in P. rewrite orb_true_r in P. discriminate.
    - rewrite put_other by auto. apply (not_blocked true a v NB w); auto. }
  destruct (stage_vnode_alive _ _ _ _ true v I1 G C1 N1 U ltac:(auto)) as (s2 & E2 & C2 & OB2).
  unfold bind. rewrite E2. destruct (okm_modify v (fun _ => d) s2 OB2 C2) as ([] & s3 & E3 & _). eauto.
Qed.

Lemma op_reclaim_alive : forall F T a s v, Inv F T a s -> good_vad v -> calm (oF s) -> exists s', op_reclaim v s = (Ok tt, s').
Proof.
  intros F T a s v I G C. unfold op_reclaim.
  destruct (require_spmaps_alive _ _ _ v (iv_n _ _ _ _ I) (iv_b _ _ _ _ I) C (good_range v G)) as (leaf & s1 & E1).
  unfold bind at 1. rewrite E1.
  destruct (require_spmaps_ok F T s v _ s1 (iv_n _ _ _ _ I) (iv_b _ _ _ _ I) (good_range v G) E1) as (T1 & W1 & _ & O1).
  specialize (O1 leaf eq_refl). assert (I1 := Inv_walk _ _ _ _ _ _ _ I W1). destruct W1 as (NI1 & _ & SW & _).
  assert (C1 : calm (oF s1)) by (eapply calm_run; [apply (mm_require_spmaps v)|exact E1|auto]).
  assert (LN : T1 (lkey v) <> None) by (destruct O1 as (x & A & _); congruence).
  destruct (resolve_leaf_live _ _ _ v NI1 (iv_b _ _ _ _ I1) C1 (good_range v G) LN) as (l2 & s2 & E2).
  unfold bind at 1. rewrite E2. destruct (resolve_leaf_cur _ _ _ _ _ _ _ I1 G E2) as (I2 & F2 & _ & O2).
  destruct (llink_alive _ _ _ _ _ _ (iv_n _ _ _ _ I2) (O2 l2 eq_refl)) as (lr & E3 & _). unfold bind at 1. rewrite E3.
  unfold bind at 1, gets at 1. unfold bind at 1, gets at 1. unfold bind at 1, mod_st at 1. unfold bind at 1, upd_node at 1, mod_st at 1.
  unfold bind at 1, gets at 1. unfold bind at 1, gets at 1.
  match goal with |- context [match ?g with Some _ => _ | None => _ end] => destruct g as [c|] end; [|eexists; reflexivity].
  destruct (leaf_used (u_node c) v); [eexists; reflexivity|]. destruct (n_main (u_node c)); [|eexists; reflexivity].
  match goal with |- context [if ?g then _ else _] => destruct g end; eexists; reflexivity.
Qed.

Lemma op_remove_alive : forall F T a s v d, Inv F T a s -> good_vad v -> calm (oF s) -> f_cell a v = Val d ->
  ~ blocked a v -> exists s', op_remove v s = (Ok tt, s').
Proof.
  intros F T a s v d I G C HV NB. assert (N := val_alloc _ _ _ _ _ _ I G HV).
  destruct (resolve_alive _ _ _ _ COW false v I G C N (fun _ => not_blocked false a v NB)) as (lr & s1 & E1).
  destruct (resolve_cow_ok _ _ _ _ _ _ _ _ I G E1) as [_ (T1 & I1 & _)].
  assert (C1 : calm (oF s1)) by (eapply calm_run; [apply (mm_resolve COW false v)|exact E1|auto]).
  destruct (op_reclaim_alive _ _ _ _ v I1 G C1) as (s2 & E2).
  unfold op_remove, bind. rewrite E1, E2. eexists. reflexivity.
Qed.

(* ---- writing out ---- *)

Lemma op_flush_v_alive : forall F T a s v, Inv F T a s -> calm (oF s) -> f_err a = false ->
  exists s', op_flush_v v s = (Ok tt, s') /\ calm (oF s') /\
    (forall k c', get (cV s') k = Some c' -> v_dirty c' = true -> k <> vkey v /\ get (cV s) k = Some c').
Proof.
  intros F T a s v I C NE. unfold op_flush_v, bind at 1, get_cv at 1, gets at 1.
  destruct (get (cV s) (vkey v)) as [c|] eqn:Hc.
  2: { exists s. split; [reflexivity|]. split; auto. intros k c' Hk _. split; auto. congruence. }
  destruct (v_dirty c) eqn:D.
  2: { exists s. split; [reflexivity|]. split; auto. intros k c' Hk Q. split; auto. congruence. }
  unfold bind at 1, gets at 1.
  assert (G : good_vad v).
  { destruct (oi_keys _ _ _ _ _ (iv_o _ _ _ _ I) _ _ Hc) as (w & E & G & _). apply vkey_inj in E. subst; auto. }
  assert (FIN : forall s1 c1, calm (oF s1) -> (forall k, k <> vkey v -> get (cV s1) k = get (cV s) k) ->
    exists s', (may_fail ;;; mod_st (fun s => with_sV (set (sV s) (v_lv c1 :: vkey v) (v_riv c1, v_dat c1)) s) ;;;
       set_cv v (mkCv (v_dat c1) (v_lv c1) (v_riv c1) false)) s1 = (Ok tt, s') /\ calm (oF s') /\
    (forall k c', get (cV s') k = Some c' -> v_dirty c' = true -> k <> vkey v /\ get (cV s) k = Some c')).
  { intros s1 c1 C1 H1. destruct (calm_ok s1 C1) as (f & E & Cf). unfold bind, set_cv, mod_st. rewrite E.
    eexists. split; [reflexivity|]. split; [exact Cf|]. cbn. intros k c' Hk Q. rewrite get_set in Hk.
    destruct (keyb_dec (vkey v) k) as [[E1 <-]|[E1 N]]; rewrite E1 in Hk.
    - injection Hk as <-. discriminate.
    - split; [congruence|]. rewrite <- H1; auto. }
  unfold bind at 1. destruct (v_lv c =? lv s) eqn:L.
  - unfold ret at 1, bind at 1, get_cv at 1, gets at 1. rewrite Hc, L. apply FIN; auto.
  - assert (N : vw T v <> None) by (eapply cached_alloc; eauto).
    destruct (resolve_alive _ _ _ _ CUR false v I G C N ltac:(discriminate)) as (lr & s1 & E1). unfold bind at 1. rewrite E1.
    destruct (resolve_cur_ok _ _ _ _ _ _ _ _ I G E1) as (I1 & F1 & _ & O1). specialize (O1 lr eq_refl).
    assert (C1 : calm (oF s1)) by (eapply calm_run; [apply (mm_resolve CUR false v)|exact E1|auto]).
    assert (Hc1 : get (cV s1) (vkey v) = Some c) by (rewrite (fr_cV _ _ F1); auto).
    unfold upd_llink, bind at 1, get_cv at 1, gets at 1. rewrite Hc1. unfold set_cv at 1, mod_st at 1.
    unfold bind at 1, get_cv at 1, gets at 1. cbn [cV with_cV]. rewrite get_set_same. cbn [v_lv].
    destruct (oi_dirty _ _ _ _ _ (iv_o _ _ _ _ I) _ _ Hc D) as [(r0 & M)|Q]; [|congruence].
    apply vw_link in M. rewrite O1 in M. injection M as M1 M2. unfold lv. rewrite M1, Z.eqb_refl. apply FIN; auto.
    intros k Hk. cbn. rewrite get_set_other by auto. rewrite (fr_cV _ _ F1). auto.
Qed.

Lemma flush_vs_alive : forall F T a ks s, Inv F T a s -> calm (oF s) -> f_err a = false ->
  exists s', flush_vs ks s = (Ok tt, s') /\ calm (oF s') /\
    (forall v c', get (cV s') (vkey v) = Some c' -> v_dirty c' = true -> ~ In (vkey v) ks /\ get (cV s) (vkey v) = Some c').
Proof.
  induction ks as [|k ks IH]; intros s I C NE; cbn [flush_vs].
  - exists s. split; [reflexivity|]. split; auto.
  - assert (X : exists s1, (match k with [vs; off] => op_flush_v (vs, off) | _ => ret tt end) s = (Ok tt, s1) /\ Inv F T a s1 /\ calm (oF s1) /\
      (forall v c', get (cV s1) (vkey v) = Some c' -> v_dirty c' = true -> vkey v <> k /\ get (cV s) (vkey v) = Some c')).
    { destruct k as [|k1 [|k2 [|k3 k]]];
      try (exists s; split; [reflexivity|split; [auto|split; [auto|intros v c' H1 H2; split; [discriminate|auto]]]]; fail).
      destruct (op_flush_v_alive _ _ _ _ (k1, k2) I C NE) as (s1 & E1 & C1 & K1). exists s1. split; auto.
      split; [eapply op_flush_v_ok; eauto|]. split; auto. }
    destruct X as (s1 & E1 & I1 & C1 & K1). unfold bind. rewrite E1.
    destruct (IH s1 I1 C1 NE) as (s2 & E2 & C2 & K2). exists s2. split; auto. split; auto.
    intros v c' H1 H2. destruct (K2 _ _ H1 H2) as [A B]. destruct (K1 _ _ B H2) as [A' B']. split; auto.
    intros [Q|Q]; [congruence|auto].
Qed.

Lemma op_flush_u_alive : forall F T a s lk, Inv F T a s -> calm (oF s) ->
  exists s', op_flush_u lk s = (Ok tt, s') /\ calm (oF s') /\ cV s' = cV s /\
    (forall k c', get (cU s') k = Some c' -> u_dirty c' = true -> k <> lk /\ get (cU s) k = Some c').
Proof.
  intros F T a s lk I C. unfold op_flush_u, bind at 1, gets at 1. destruct (get (cU s) lk) as [c|] eqn:Hc.
  2: { exists s. split; [reflexivity|]. split; auto. split; auto. intros k c' Hk _. split; auto. congruence. }
  destruct (u_dirty c) eqn:D.
  2: { exists s. split; [reflexivity|]. split; auto. split; auto. intros k c' Hk Q. split; auto. congruence. }
  unfold bind at 1, gets at 1. destruct (ni_key _ _ _ _ _ _ _ (iv_n _ _ _ _ I) _ _ Hc) as (l & k & -> & _ & Ld & _).
  specialize (Ld D). replace (l =? lv s) with true by (unfold lv; lia).
  destruct (calm_ok s C) as (f & E & Cf). unfold bind. rewrite E. eexists. split; [reflexivity|]. split; [exact Cf|]. split; [reflexivity|].
  cbn. intros k0 c' Hk Q. rewrite get_set in Hk. destruct (keyb_dec (l :: k) k0) as [[E1 <-]|[E1 N]]; rewrite E1 in Hk.
  - injection Hk as <-. discriminate.
  - split; [congruence|auto].
Qed.

Lemma flush_us_alive : forall F T a ks s, Inv F T a s -> calm (oF s) ->
  exists s', flush_us ks s = (Ok tt, s') /\ calm (oF s') /\ cV s' = cV s /\
    (forall k c', get (cU s') k = Some c' -> u_dirty c' = true -> ~ In k ks /\ get (cU s) k = Some c').
Proof.
  induction ks as [|k ks IH]; intros s I C; cbn [flush_us].
  - exists s. split; [reflexivity|]. split; auto.
  - destruct (op_flush_u_alive _ _ _ _ k I C) as (s1 & E1 & C1 & V1 & K1). unfold bind. rewrite E1.
    destruct (op_flush_u_ok _ _ _ _ _ _ _ I E1) as (I1 & _).
    destruct (IH s1 I1 C1) as (s2 & E2 & C2 & V2 & K2). exists s2. split; auto. split; auto. split; [congruence|].
    intros v c' H1 H2. destruct (K2 _ _ H1 H2) as [A B]. destruct (K1 _ _ B H2) as [A' B']. split; auto.
    intros [Q|Q]; [congruence|auto].
Qed.

Lemma clean_all_clean : forall s, clean s -> all_clean s = true.
Proof.
  intros s [A B]. unfold all_clean. apply andb_true_iff. split; apply forallb_forall; intros p _.
  - destruct (get (cU s) (fst p)) as [c|] eqn:E; auto. rewrite (A _ _ E). auto.
  - destruct (get (cV s) (fst p)) as [c|] eqn:E; auto. rewrite (B _ _ E). auto.
Qed.

Lemma get_keys : forall A (m : amap A) k x, get m k = Some x -> In k (map fst m).
Proof. intros A m k x H. apply get_in in H. apply in_map_iff. exists (k, x). auto. Qed.

Lemma op_flush_alive : forall F T a s, Inv F T a s -> calm (oF s) -> f_err a = false ->
  exists s', op_flush s = (Ok tt, s') /\ calm (oF s').
Proof.
  intros F T a s I C NE. unfold op_flush, bind at 1, gets at 1.
  destruct (flush_vs_alive _ _ _ (map fst (cV s)) s I C NE) as (s1 & E1 & C1 & K1). unfold bind at 1. rewrite E1.
  destruct (flush_vs_ok _ _ _ _ _ _ _ I E1) as (I1 & _). unfold bind at 1, gets at 1.
  destruct (flush_us_alive _ _ _ (map fst (cU s1)) s1 I1 C1) as (s2 & E2 & C2 & V2 & K2). unfold bind at 1. rewrite E2.
  destruct (flush_us_ok _ _ _ _ _ _ _ I1 E2) as (I2 & _).
  assert (CL : clean s2).
  { split; intros k c Hk.
    - destruct (u_dirty c) eqn:D; auto. exfalso. destruct (K2 _ _ Hk D) as [A B]. apply A. eapply get_keys; eauto.
    - destruct (v_dirty c) eqn:D; auto. exfalso. rewrite V2 in Hk.
      destruct (oi_keys _ _ _ _ _ (iv_o _ _ _ _ I1) _ _ Hk) as (v & -> & _).
      destruct (K1 _ _ Hk D) as [A B]. apply A. eapply get_keys; eauto. }
  destruct (calm_ok s2 C2) as (f & E3 & Cf). unfold bind at 1. unfold op_flush_sb at 1, bind at 1. rewrite E3. unfold mod_st at 1.
  unfold bind, gets. rewrite clean_all_clean. { eexists. split; [reflexivity|]. exact Cf. }
  destruct CL as [A B]. split; auto.
Qed.

Lemma op_remount_alive : forall F T a s, Inv F T a s -> calm (oF s) -> f_err a = false ->
  exists s', op_remount s = (Ok tt, s').
Proof.
  intros F T a s I C NE. destruct (op_flush_alive _ _ _ _ I C NE) as (s1 & E1 & C1).
  destruct (op_flush_ok _ _ _ _ _ _ I E1) as (I1 & _ & _ & K). destruct (K eq_refl) as [_ S1].
  unfold op_remount, bind. rewrite E1. unfold gets. rewrite (iv_boot _ _ _ _ I1), S1. eexists. reflexivity.
Qed.

Lemma op_fork_alive : forall F T a s, Inv F T a s -> calm (oF s) -> f_err a = false ->
  exists x s', op_fork s = (Ok x, s').
Proof.
  intros F T a s I C NE. destruct (op_flush_alive _ _ _ _ I C NE) as (s1 & E1 & C1).
  destruct (op_flush_ok _ _ _ _ _ _ I E1) as (I1 & _).
  unfold op_fork. unfold bind at 1. rewrite E1. unfold bind at 1, mod_st at 1. unfold bind at 1, gets at 1.
  unfold bind at 1. unfold clone_rebind, bind at 1.
  destruct (calm_ok (with_uam [] s1) C1) as (f & E2 & Cf). rewrite E2.
  unfold bind, gets, mod_st, ret, flipB. cbn [oB with_uam with_ids with_sbd with_sb with_nx with_oF].
  rewrite (iv_b _ _ _ _ I1). do 2 eexists. reflexivity.
Qed.

Lemma op_flush_sb_alive : forall s, calm (oF s) -> exists s', op_flush_sb s = (Ok tt, s').
Proof. intros s C. destruct (calm_ok s C) as (f & E & _). unfold op_flush_sb, bind. rewrite E. eexists. reflexivity. Qed.
