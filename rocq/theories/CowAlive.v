(* Copy-on-write: when no call below fails, changes, new objects, removals,
   writing out and snapshots succeed. *)
From Verif Require Import Base AddrModel CowModel CowSpec CowProofs CowWalk CowObj CowCopy CowOps CowChange CowFlush CowFrame CowLive.
Open Scope Z_scope.

(* ---- steps that cannot fail then ---- *)

Definition okm {A} (m : M A) : Prop := forall s, oB s = [] -> calm (oF s) ->
  exists a s', m s = (Ok a, s') /\ oB s' = [] /\ calm (oF s').

Lemma okm_bind : forall A B (m : M A) (f : A -> M B), okm m -> (forall a, okm (f a)) -> okm (bind m f).
Proof.
  intros A B m f H1 H2 s OB C. destruct (H1 s OB C) as (a & s1 & E & OB1 & C1).
  destruct (H2 a s1 OB1 C1) as (b & s2 & E2 & R). exists b, s2. unfold bind. rewrite E. auto.
Qed.
Lemma okm_ret : forall A (a : A), okm (ret a). Proof. intros A a s OB C. exists a, s. auto. Qed.
Lemma okm_gets : forall A (f : st -> A), okm (gets f). Proof. intros A f s OB C. exists (f s), s. auto. Qed.
Lemma okm_mod : forall f, (forall s, oB (f s) = oB s /\ oF (f s) = oF s) -> okm (mod_st f).
Proof. intros f H s OB C. destruct (H s) as [A B]. exists tt, (f s). unfold mod_st. rewrite A, B. auto. Qed.
Lemma okm_fail : okm may_fail.
Proof. intros s OB C. destruct (calm_ok s C) as (f & E & Cf). exists tt, (with_oF f s). auto. Qed.
Lemma okm_flip : forall A (x y : M A), okm y -> okm (b <- flipB ;; if b then x else y).
Proof. intros A x y H s OB C. unfold bind, flipB. rewrite OB. apply H; auto. Qed.
Lemma okm_track : forall k l, okm (track k l).
Proof. intros k l. apply okm_flip. apply okm_mod. auto. Qed.
Lemma okm_track_hit : forall k l, okm (track_hit k l).
Proof.
  intros k l. unfold track_hit. apply okm_bind; [apply okm_gets|]. intros u. destruct (uam_find u k); [apply okm_ret|apply okm_track].
Qed.
Lemma okm_upd : forall l k f, okm (upd_node l k f).
Proof. intros l k f. apply okm_mod. intros s. destruct (get (cU s) (l :: k)); auto. Qed.
Lemma okm_spawn_uni : forall l k r, okm (spawn_uni l k r).
Proof.
  intros l k r. unfold spawn_uni. apply okm_bind; [apply okm_gets|]. intros [c|]; [apply okm_track_hit|].
  apply okm_bind; [apply okm_fail|]. intros _. apply okm_bind; [apply okm_track|]. intros _ s OB C.
  destruct (calm_ok s C) as (f & E & Cf). rewrite E. do 2 eexists. split; [reflexivity|]. auto.
Qed.
Lemma okm_setup : forall l k, okm (setup_spawned l k).
Proof.
  intros l k. unfold setup_spawned. apply okm_bind; [apply okm_gets|]. intros c. apply okm_bind; [apply okm_gets|]. intros r.
  apply okm_bind; [apply okm_mod; auto|]. intros _. apply okm_upd.
Qed.
Lemma okm_set_main : forall p vs l, okm (p_set_main p vs l).
Proof. intros [[l0 k]|] vs l; cbn [p_set_main]; [apply okm_upd|apply okm_mod; auto]. Qed.
Lemma okm_p_bind : forall p vs b l r, okm (p_bind p vs b l r).
Proof. intros [[l0 k]|] vs b l r; cbn [p_bind]; [apply okm_upd|apply okm_mod; auto]. Qed.
Lemma okm_require_main : forall p vs, okm (require_main p vs).
Proof.
  intros p vs. unfold require_main. apply okm_bind; [apply okm_gets|]. intros m. apply okm_bind; [apply okm_fail|]. intros _.
  destruct m; [apply okm_ret|]. apply okm_bind; [apply okm_gets|]. intros l. apply okm_bind; [apply okm_set_main|]. intros _. apply okm_ret.
Qed.
Lemma okm_leaf_main : forall l k, okm (require_leaf_main l k).
Proof.
  intros l k. unfold require_leaf_main. apply okm_bind; [apply okm_gets|]. intros [m|]; [apply okm_fail|].
  apply okm_flip. apply okm_bind; [apply okm_gets|]. intros l'. apply okm_upd.
Qed.
Lemma okm_spawn_at : forall p vs h b, okm (spawn_at p vs h b).
Proof.
  intros p vs h b. unfold spawn_at. cbv zeta. apply okm_bind; [apply okm_require_main|]. intros l.
  apply okm_bind; [apply okm_gets|]. intros r. apply okm_bind; [apply okm_spawn_uni|]. intros _.
  apply okm_bind; [apply okm_setup|]. intros _. apply okm_bind; [destruct (h =? H_SPLEAF); [apply okm_leaf_main|apply okm_ret]|].
  intros _. apply okm_ret.
Qed.
Lemma okm_bind_at : forall p vs h b l, okm (bind_at p vs h b l).
Proof. intros. unfold bind_at. apply okm_bind; [apply okm_gets|]. intros r. apply okm_p_bind. Qed.
Lemma okm_clone_at : forall p vs h b l, okm (clone_at p vs h b l).
Proof.
  intros p vs h b l. unfold clone_at. cbv zeta. apply okm_bind; [apply okm_spawn_at|]. intros l'.
  apply okm_bind; [apply okm_gets|]. intros o. apply okm_bind; [destruct o; [apply okm_upd|apply okm_ret]|]. intros _.
  apply okm_bind; [apply okm_bind_at|]. intros _. apply okm_ret.
Qed.
Lemma okm_set_cv : forall v c, okm (set_cv v c). Proof. intros. apply okm_mod. auto. Qed.
Lemma okm_upd_llink : forall v lr, okm (upd_llink v lr).
Proof. intros. unfold upd_llink. apply okm_bind; [apply okm_gets|]. intros [c|]; [apply okm_set_cv|apply okm_ret]. Qed.
Lemma okm_modify : forall v f, okm (modify v f).
Proof. intros. unfold modify. apply okm_bind; [apply okm_gets|]. intros [c|]; [apply okm_set_cv|apply okm_ret]. Qed.
Lemma okm_redirty : forall ws, okm (redirty ws).
Proof.
  induction ws as [|w ws IH]; cbn [redirty]; [apply okm_ret|]. apply okm_bind; [apply okm_gets|]. intros c.
  apply okm_bind; [destruct c; [apply okm_set_cv|apply okm_ret]|]. auto.
Qed.
Lemma okm_ok : forall A (m : M A) s, okm m -> oB s = [] -> calm (oF s) -> exists a s', m s = (Ok a, s').
Proof. intros A m s H OB C. destruct (H s OB C) as (a & s' & E & _). eauto. Qed.

(* ---- the maps ---- *)

Lemma stage_uni_after : forall F T s k x s', NIs F T s -> oB s = [] -> calm (oF s) -> T k = Some x ->
  stage_uni (t_l x) k (t_r x) s = (Ok tt, s') -> oB s' = [] /\ calm (oF s').
Proof.
  intros F T s k x s' I OB C Hk E. destruct (stage_uni_ok _ _ _ _ _ _ _ I OB Hk E) as (_ & Fr & _). split.
  - destruct Fr; congruence.
  - eapply calm_run; [apply (mm_stage_uni (t_l x) k (t_r x))|exact E|auto].
Qed.

Lemma stage_level_alive : forall F T s m p vs h b, NIs F T s -> oB s = [] -> calm (oF s) -> wfk [vs; h; b] ->
  parok T s m p vs h b -> T [vs; h; b] <> None -> exists l s', stage_level m p vs h b s = (Ok l, s').
Proof.
  intros F T s m p vs h b I OB C W P N. unfold stage_level. cbv zeta. unfold bind at 1, gets at 1.
  assert (DIR : exists l s', (kd <- gets (fun s => p_kid s p vs b);;
     match kd with
     | Some l => r <- gets (fun s => p_riv s p vs b);; stage_uni l [vs; h; b] r;;;
           (if acc m l s then ret l else clone_at p vs h b l)
     | None => err
     end) s = (Ok l, s')).
  { unfold bind at 1, gets at 1. destruct (parok_vals _ _ _ _ _ _ _ _ I P) as [PK PR]. rewrite PK.
    pose proof (ni_link _ _ _ _ _ _ _ I _ _ _ W) as L. destruct (T [vs; h; b]) as [x|] eqn:Tk; [|congruence].
    destruct L as [L1 L2]. rewrite L1. unfold bind at 1, gets at 1. rewrite PR, L2. unfold bind at 1.
    destruct (stage_uni_live _ _ _ _ _ I OB C Tk) as (s1 & E1). rewrite E1.
    destruct (stage_uni_after _ _ _ _ _ _ I OB C Tk E1) as [OB1 C1].
    destruct (acc m (t_l x) s); [do 2 eexists; reflexivity|]. apply okm_ok; auto. apply okm_clone_at. }
  destruct (fcached s [vs; h; b]) as [l|]; auto. destruct (acc m l s); auto. do 2 eexists. reflexivity.
Qed.

Lemma require_level_alive : forall F T s p vs h b, NIs F T s -> oB s = [] -> calm (oF s) -> wfk [vs; h; b] ->
  parok T s COW p vs h b -> exists l s', require_level p vs h b s = (Ok l, s').
Proof.
  intros F T s p vs h b I OB C W P. unfold require_level, bind at 1, gets at 1.
  destruct (parok_vals _ _ _ _ _ _ _ _ I P) as [PK PR]. rewrite PK.
  pose proof (ni_link _ _ _ _ _ _ _ I _ _ _ W) as L. destruct (lnk T (sb s) vs h b) as [l|].
  - eapply stage_level_alive; eauto. intros Q. rewrite Q in L. discriminate.
  - unfold bind at 1, gets at 1. cbv zeta.
    assert (X : exists l s', (l <- spawn_at p vs h b;; bind_at p vs h b l;;; ret l) s = (Ok l, s')).
    { apply okm_ok; auto. apply okm_bind; [apply okm_spawn_at|]. intros l. apply okm_bind; [apply okm_bind_at|]. intros _. apply okm_ret. }
    destruct (fcached s [vs; h; b]); auto. destruct (_ && _); auto. do 2 eexists. reflexivity.
Qed.

Lemma leaf_path : forall F T s vs off, NIs F T s -> 0 <= off < top -> T [vs; 2; base 2 off] <> None ->
  forall h, 2 <= h <= 6 -> T [vs; h; base h off] <> None.
Proof.
  intros F T s vs off I Ho N.
  assert (N3 := parent_there _ _ _ _ 2 off I ltac:(lia) Ho N).
  assert (N4 := parent_there _ _ _ _ 3 off I ltac:(lia) Ho N3).
  assert (N5 := parent_there _ _ _ _ 4 off I ltac:(lia) Ho N4).
  assert (N6 := parent_there _ _ _ _ 5 off I ltac:(lia) Ho N5).
  intros h' Hh. destruct (height_cases h' Hh) as [->|[->|[->|[->| ->]]]]; auto.
Qed.

(* Walking down a path: [Q] is what is known of the tree and is kept. *)
Lemma walk_alive : forall F m vs off lvl (Q : tree -> Prop), 0 <= off < top ->
  (forall p h b, mm (lvl p h b)) ->
  (forall T T', sameW T T' -> Q T -> Q T') ->
  (forall T s p h, 2 <= h <= 6 -> NIs F T s -> oB s = [] -> calm (oF s) -> Q T -> parok T s m p vs h (base h off) ->
     exists l s', lvl p h (base h off) s = (Ok l, s')) ->
  (forall T s p h r s', 2 <= h <= 6 -> NIs F T s -> oB s = [] -> parok T s m p vs h (base h off) ->
     lvl p h (base h off) s = (r, s') ->
     exists T', walked F T s m T' s' /\ r <> Bad /\ (forall l, r = Ok l -> node_at T' s' m [vs; h; base h off] l)) ->
  forall hs h T s p, chain h hs -> NIs F T s -> oB s = [] -> calm (oF s) -> Q T -> parok T s m p vs h (base h off) ->
  exists p' s', walk lvl hs p vs off s = (Ok p', s').
Proof.
  intros F m vs off lvl Q Ho MM SQ LV LO. induction hs as [|h' hs IH]; intros h T s p CH I OB C HQ P; cbn [chain] in CH.
  - do 2 eexists. reflexivity.
  - destruct CH as (-> & Hh & CH). cbn [walk]. unfold bind.
    destruct (LV T s p h Hh I OB C HQ P) as (l & s1 & E). rewrite E.
    destruct (LO _ _ _ _ _ _ Hh I OB P E) as (T1 & (I1 & F1 & S1 & _) & _ & O1).
    destruct (O1 l eq_refl) as (x & X1 & X2 & X3 & X4).
    apply (IH (h - 1) T1 s1); auto.
    + destruct F1; congruence.
    + eapply calm_run; [apply (MM p h (base h off))|exact E|auto].
    + eauto.
    + unfold parok. replace (h - 1 =? 6) with false by lia.
      rewrite base_up1 by lia. replace (h - 1 + 1) with h by lia. exists l, x. repeat split; auto.
Qed.

Lemma leaf_of_alive : forall T s m p vs b, parok T s m p vs 1 b -> exists l, leaf_of p s = (Ok l, s).
Proof. intros T s m p vs b (l & x & -> & _). exists l. reflexivity. Qed.

Lemma stage_spmaps_alive : forall F T s m v, NIs F T s -> oB s = [] -> calm (oF s) -> 0 <= snd v < top ->
  vw T v <> None -> exists l s', stage_spmaps m v s = (Ok l, s').
Proof.
  intros F T s m v I OB C Ho N. unfold stage_spmaps, bind.
  assert (LO : forall T s p h r s', 2 <= h <= 6 -> NIs F T s -> oB s = [] -> parok T s m p (fst v) h (base h (snd v)) ->
     stage_level m p (fst v) h (base h (snd v)) s = (r, s') ->
     exists T', walked F T s m T' s' /\ r <> Bad /\ (forall l, r = Ok l -> node_at T' s' m [fst v; h; base h (snd v)] l)).
  { intros. eapply stage_level_ok; eauto. apply wfk_of; auto. }
  destruct (walk_alive F m (fst v) (snd v) (fun p h b => stage_level m p (fst v) h b) (fun T => vw T v <> None) Ho) with
    (hs := levels) (h := 6) (T := T) (s := s) (p := @None (Z * key)) as (p & s1 & E); auto.
  - intros. apply mm_stage_level.
  - intros T0 T' S Q. rewrite S. auto.
  - intros T0 s0 p0 h Hh I0 OB0 C0 Q0 P0. eapply stage_level_alive; eauto. { apply wfk_of; auto. }
    eapply leaf_path; eauto. apply (vw_leaf _ _ Q0).
  - apply chain_levels.
  - reflexivity.
  - rewrite E.
    destruct (walk_ok F m (fst v) (snd v) (fun p h b => stage_level m p (fst v) h b) Ho LO
      levels 6 T s None _ _ chain_levels I OB ltac:(reflexivity) E) as (T1 & _ & _ & O1).
    destruct (leaf_of_alive _ _ _ _ _ _ (O1 p eq_refl)) as (l & El). eauto.
Qed.

Lemma require_spmaps_alive : forall F T s v, NIs F T s -> oB s = [] -> calm (oF s) -> 0 <= snd v < top ->
  exists l s', require_spmaps v s = (Ok l, s').
Proof.
  intros F T s v I OB C Ho. unfold require_spmaps, bind.
  assert (LO : forall T s p h r s', 2 <= h <= 6 -> NIs F T s -> oB s = [] -> parok T s COW p (fst v) h (base h (snd v)) ->
     require_level p (fst v) h (base h (snd v)) s = (r, s') ->
     exists T', walked F T s COW T' s' /\ r <> Bad /\ (forall l, r = Ok l -> node_at T' s' COW [fst v; h; base h (snd v)] l)).
  { intros. eapply require_level_ok; eauto. apply wfk_of; auto. }
  destruct (walk_alive F COW (fst v) (snd v) (fun p h b => require_level p (fst v) h b) (fun _ => True) Ho) with
    (hs := levels) (h := 6) (T := T) (s := s) (p := @None (Z * key)) as (p & s1 & E); auto.
  - intros. apply mm_require_level.
  - intros T0 s0 p0 h Hh I0 OB0 C0 _ P0. eapply require_level_alive; eauto. apply wfk_of; auto.
  - apply chain_levels.
  - reflexivity.
  - rewrite E.
    destruct (walk_ok F COW (fst v) (snd v) (fun p h b => require_level p (fst v) h b) Ho LO
      levels 6 T s None _ _ chain_levels I OB ltac:(reflexivity) E) as (T1 & _ & _ & O1).
    destruct (leaf_of_alive _ _ _ _ _ _ (O1 p eq_refl)) as (l & El). eauto.
Qed.

Lemma resolve_leaf_alive : forall F T s m v, NIs F T s -> oB s = [] -> calm (oF s) -> 0 <= snd v < top ->
  vw T v <> None -> exists l s', resolve_leaf m v s = (Ok l, s').
Proof.
  intros F T s m v I OB C Ho N. unfold resolve_leaf, bind, gets.
  destruct (fcached s (lkey v)) as [l|]; [destruct (acc m l s)|]; try (do 2 eexists; reflexivity); eapply stage_spmaps_alive; eauto.
Qed.

(* Every block of a leaf has a home. *)
Lemma link_there : forall F T s v, NIs F T s -> T (lkey v) <> None -> exists l r, link_at T v = Some (Some l, r).
Proof.
  intros F T s v I N. unfold link_at. destruct (T (lkey v)) as [x|] eqn:E; [|congruence].
  destruct (ni_leaf _ _ _ _ _ _ _ I _ _ _ E (slot v)) as (l & A & _). rewrite A. eauto.
Qed.
Lemma llink_alive : forall F T s m v leaf, NIs F T s -> node_at T s m (lkey v) leaf ->
  exists lr, llink_of leaf v s = (Ok lr, s) /\ link_at T v = Some (Some (fst lr), snd lr).
Proof.
  intros F T s m v leaf I N. destruct (llink_of leaf v s) as [r s'] eqn:E.
  destruct (llink_of_ok _ _ _ _ _ _ _ _ I N E) as (-> & _ & _ & O).
  destruct (link_there F T s v I) as (l & r0 & L). { destruct N as (x & A & _). congruence. }
  rewrite (O _ _ L). exists (l, r0). auto.
Qed.

(* ---- staging ---- *)

Lemma val_alloc : forall F T a s v d, Inv F T a s -> good_vad v -> f_cell a v = Val d -> vw T v <> None.
Proof.
  intros F T a s v d I G H. pose proof (oi_val _ _ _ _ _ (iv_o _ _ _ _ I) _ _ G H) as V.
  destruct (get (cV s) (vkey v)) eqn:E; [eapply cached_alloc; eauto|]. destruct V as (l & r & V & _). congruence.
Qed.

Lemma require_stable_alive : forall F T a s v, Inv F T a s -> good_vad v -> calm (oF s) -> vw T v <> None ->
  exists s', require_stable v s = (Ok tt, s') /\ calm (oF s').
Proof.
  intros F T a s v I G C N. unfold require_stable, bind.
  destruct (stage_spmaps_alive _ _ _ CUR v (iv_n _ _ _ _ I) (iv_b _ _ _ _ I) C (good_range v G) N) as (l & s1 & E1). rewrite E1.
  destruct (stage_spmaps_ok F T s CUR v _ s1 (iv_n _ _ _ _ I) (iv_b _ _ _ _ I) (good_range v G) E1) as (T1 & W1 & N1 & O1).
  destruct W1 as (I1 & _ & S1 & _). unfold gets.
  rewrite (proj2 (allocated_ok _ _ _ _ _ _ I1 (O1 l eq_refl))) by (rewrite S1; auto).
  exists s1. split; [reflexivity|]. eapply calm_run; [apply (mm_stage_spmaps CUR v)|exact E1|auto].
Qed.

Lemma stage_cur_alive : forall F T a s v d, Inv F T a s -> good_vad v -> calm (oF s) -> f_cell a v = Val d ->
  exists s', stage_cur v s = (Ok tt, s').
Proof.
  intros F T a s v d I G C HV. assert (VN := val_alloc _ _ _ _ _ _ I G HV).
  unfold stage_cur, bind at 1, get_cv, gets at 1. destruct (get (cV s) (vkey v)) as [c|] eqn:E. { eexists. reflexivity. }
  destruct (require_stable_alive _ _ _ _ _ I G C VN) as (s1 & E1 & C1). unfold bind at 1. rewrite E1.
  destruct (require_stable_ok _ _ _ _ _ _ _ I G E1) as (I1 & F1 & _).
  destruct (resolve_leaf_alive _ _ _ CUR v (iv_n _ _ _ _ I1) (iv_b _ _ _ _ I1) C1 (good_range v G) VN) as (l & s2 & E2).
  unfold bind at 1. rewrite E2. destruct (resolve_leaf_cur _ _ _ _ _ _ _ I1 G E2) as (I2 & F2 & _ & O2).
  assert (C2 : calm (oF s2)) by (eapply calm_run; [apply (mm_resolve_leaf CUR v)|exact E2|auto]).
  destruct (llink_alive _ _ _ _ _ _ (iv_n _ _ _ _ I2) (O2 l eq_refl)) as (lr & E3 & L). unfold bind at 1. rewrite E3.
  destruct (calm_ok s2 C2) as (f & E4 & _). unfold bind at 1. rewrite E4. unfold bind.
  destruct (load (fst lr) (snd lr) v (with_oF f s2)) as [r5 s5] eqn:E5.
  destruct (load_ok _ _ _ _ _ _ E5) as (-> & _ & O5).
  assert (CV2 : cV s2 = cV s) by (rewrite (fr_cV _ _ F2), (fr_cV _ _ F1); auto).
  pose proof (oi_val _ _ _ _ _ (iv_o _ _ _ _ I2) _ _ G HV) as V. rewrite CV2, E in V. destruct V as (l0 & r0 & V1 & V2).
  apply vw_link in V1. rewrite L in V1. injection V1 as V1 V3. rewrite <- V1, <- V3 in V2. rewrite (O5 d V2).
  eexists. reflexivity.
Qed.

(* What may stand in the way of copying the block of v. *)
Definition unblocked (raw : bool) (a : fs) (v : vad) : Prop :=
  forall w, good_vad w -> fst w = fst v -> slot w = slot v -> pre_skip raw v w = false -> f_cell a w <> Any.

Lemma pre_clone_alive : forall F T a raw v ws ac s, Inv F T a s -> calm (oF s) ->
  (forall w, In w ws -> pre_skip raw v w = false -> good_vad w /\ exists d, f_cell a w = Val d) ->
  exists done s', pre_clone ws raw v ac s = (Ok done, s').
Proof.
  intros F T a raw v. induction ws as [|w ws IH]; intros ac s I C H.
  - do 2 eexists. reflexivity.
  - cbn [pre_clone]. destruct (pre_skip raw v w) eqn:Es. { apply IH; auto. intros; apply H; auto. right; auto. }
    destruct (H w (or_introl eq_refl) Es) as [G [d HV]].
    destruct (stage_cur_alive _ _ _ _ _ _ I G C HV) as (s1 & E1). rewrite E1.
    destruct (stage_cur_ok _ _ _ _ _ _ _ I G E1) as (I1 & _).
    apply IH; auto. { eapply calm_run; [apply (mm_stage_cur w)|exact E1|auto]. } intros; apply H; auto. right; auto.
Qed.

Lemma clone_lbk_alive : forall F T a s raw v leaf, Inv F T a s -> good_vad v -> calm (oF s) ->
  node_at T s COW (lkey v) leaf -> unblocked raw a v -> exists s', clone_lbk raw v leaf s = (Ok tt, s').
Proof.
  intros F T a s raw v leaf I G C N U. unfold clone_lbk, bind at 1, gets at 1. set (ws := block_objs s leaf v).
  assert (WS : forall w, In w ws -> pre_skip raw v w = false -> good_vad w /\ exists d, f_cell a w = Val d).
  { intros w Hw Es. unfold ws, block_objs in Hw. apply filter_In in Hw as [A B].
    destruct (objs_at_in v w G A) as (Q1 & Q2 & Q3 & Q4).
    assert (Gw : good_vad w). { apply Q4. unfold pre_skip in Es. apply orb_false_iff in Es as [Es _]. lia. }
    split; auto. rewrite <- Q3 in N. apply (allocated_ok F T s COW w leaf (iv_n _ _ _ _ I) N) in B.
    specialize (U w Gw Q1 Q2 Es). destruct (f_cell a w) eqn:E; [|congruence|eauto].
    exfalso. apply B. eapply (oi_free _ _ _ _ _ (iv_o _ _ _ _ I)); eauto. }
  destruct (pre_clone_alive _ _ _ _ _ ws [] s I C WS) as (done & s1 & E1). unfold bind at 1. rewrite E1.
  assert (C1 : calm (oF s1)) by (eapply calm_run; [apply (mm_pre_clone ws raw v [])|exact E1|auto]).
  assert (I1 : Inv F T a s1).
  { apply (pre_clone_ok F T a raw v ws [] s (Ok done) s1 I); auto.
    - intros w Hw Hz. unfold ws, block_objs in Hw. apply filter_In in Hw as [A _]. apply (objs_at_in v w G A). auto. }
  assert (K1 : okm (require_leaf_main leaf (lkey v);;; may_fail)) by (apply okm_bind; [apply okm_leaf_main|intros _; apply okm_fail]).
  destruct (K1 s1 (iv_b _ _ _ _ I1) C1) as (u & s2 & E2 & OB2 & C2). rewrite E2.
  match goal with |- exists s', ?m s2 = _ => assert (K2 : okm m) by (apply okm_bind; [apply okm_upd|intros _; apply okm_redirty]);
    destruct (K2 s2 OB2 C2) as ([] & s3 & E3 & _) end.
  eauto.
Qed.

Lemma resolve_alive : forall F T a s m raw v, Inv F T a s -> good_vad v -> calm (oF s) -> vw T v <> None ->
  (m = COW -> unblocked raw a v) -> exists lr s', resolve_inspect m raw v s = (Ok lr, s').
Proof.
  intros F T a s m raw v I G C N U. unfold resolve_inspect.
  destruct (resolve_leaf_alive _ _ _ m v (iv_n _ _ _ _ I) (iv_b _ _ _ _ I) C (good_range v G) N) as (leaf & s1 & E1).
  unfold bind at 1. rewrite E1.
  destruct (resolve_leaf_ok F T s m v _ s1 (iv_n _ _ _ _ I) (iv_b _ _ _ _ I) (good_range v G) E1) as (T1 & W1 & _ & O1).
  specialize (O1 leaf eq_refl). assert (I1 := Inv_walk _ _ _ _ _ _ _ I W1).
  assert (C1 : calm (oF s1)) by (eapply calm_run; [apply (mm_resolve_leaf m v)|exact E1|auto]).
  destruct (llink_alive _ _ _ _ _ _ (iv_n _ _ _ _ I1) O1) as (lr & E2 & L). unfold bind at 1. rewrite E2.
  unfold bind at 1, gets at 1. destruct (acc m (fst lr) s1) eqn:A. { do 2 eexists. reflexivity. }
  destruct m; [discriminate|]. specialize (U eq_refl).
  destruct (calm_ok s1 C1) as (f & E3 & Cf). unfold bind at 1. rewrite E3.
  assert (I2 := Inv_oF _ _ _ _ f I1).
  destruct (clone_lbk_alive F T1 a (with_oF f s1) raw v leaf I2 G Cf O1 U) as (s3 & E4).
  unfold bind at 1. rewrite E4.
  destruct (clone_lbk_ok F T1 a (with_oF f s1) raw v leaf _ _ I2 G O1 E4) as [_ (T3 & I3 & N3 & _)].
  destruct (llink_alive _ _ _ _ _ _ (iv_n _ _ _ _ I3) N3) as (lr3 & E5 & _). rewrite E5. eauto.
Qed.

Lemma load_data : forall l r v s, ltype_isdata (fst v) = true -> exists d, load l r v s = (Ok d, s).
Proof.
  intros l r v s H. unfold load, bind, gets. rewrite H.
  destruct (get (sV s) (l :: vkey v)) as [[r' d]|]; [destruct (r' =? r)|]; eexists; reflexivity.
Qed.
Lemma databk_data : forall v, isdatabk v = true -> ltype_isdata (fst v) = true.
Proof. unfold isdatabk, ltype_isdata, LT_DATA1K, LT_DATABK. intros v H. lia. Qed.

Lemma stage_vnode_alive : forall F T a s raw v, Inv F T a s -> good_vad v -> calm (oF s) -> vw T v <> None ->
  unblocked raw a v -> (raw = true \/ isdatabk v = true \/ exists d, f_cell a v = Val d) ->
  exists s', stage_vnode COW raw v s = (Ok tt, s') /\ calm (oF s') /\ oB s' = [].
Proof.
  intros F T a s raw v I G C N U K.
  assert (X : exists s', stage_vnode COW raw v s = (Ok tt, s') /\ oB s' = []).
  { unfold stage_vnode, bind at 1, get_cv at 1, gets at 1. unfold bind at 1, gets at 1.
    assert (FIN : forall v lr T' a' s1, Inv F T' a' s1 -> calm (oF s1) -> exists s', upd_llink v lr s1 = (Ok tt, s') /\ oB s' = []).
    { intros v0 lr T' a' s1 I1 C1. destruct (okm_upd_llink v0 lr s1 (iv_b _ _ _ _ I1) C1) as ([] & s' & E & OB & _). eauto. }
    destruct (get (cV s) (vkey v)) as [c|] eqn:E.
    - destruct (acc COW (v_lv c) s). { exists s. split; [reflexivity|]. apply (iv_b _ _ _ _ I). }
      destruct (resolve_alive _ _ _ _ COW raw v I G C N (fun _ => U)) as (lr & s1 & E1). unfold bind. rewrite E1.
      destruct (resolve_cow_ok _ _ _ _ _ _ _ _ I G E1) as [_ (T1 & I1 & _)].
      eapply FIN; [exact I1|]. eapply calm_run; [apply (mm_resolve COW raw v)|exact E1|auto].
    - destruct (require_stable_alive _ _ _ _ _ I G C N) as (s1 & E1 & C1). unfold bind at 1. rewrite E1.
      destruct (require_stable_ok _ _ _ _ _ _ _ I G E1) as (I1 & F1 & _).
      destruct (resolve_alive _ _ _ _ COW raw v I1 G C1 N (fun _ => U)) as (lr & s2 & E2). unfold bind at 1. rewrite E2.
      destruct (resolve_cow_ok _ _ _ _ _ _ _ _ I1 G E2) as [F2 (T2 & I2 & L2 & LA & SA)].
      assert (C2 : calm (oF s2)) by (eapply calm_run; [apply (mm_resolve COW raw v)|exact E2|auto]).
      destruct (calm_ok s2 C2) as (f & E3 & Cf). unfold bind at 1. rewrite E3. unfold bind at 1, get_cv, gets at 1.
      change (cV (with_oF f s2)) with (cV s2). destruct (get (cV s2) (vkey v)) as [c2|] eqn:Ec.
      + eapply FIN; [exact (Inv_oF _ _ _ _ f I2)|exact Cf].
      + assert (L : exists d, (if raw then ret [] else load (fst lr) (snd lr) v) (with_oF f s2) = (Ok d, with_oF f s2)).
        { destruct raw; [eexists; reflexivity|]. destruct (isdatabk v) eqn:DB; [apply load_data, databk_data; auto|].
          destruct K as [K|[K|[d K]]]; [discriminate|discriminate|].
          destruct (load (fst lr) (snd lr) v (with_oF f s2)) as [r5 s5] eqn:E5. destruct (load_ok _ _ _ _ _ _ E5) as (-> & _ & O5).
          assert (K2 : f_cell (spoil_if (hurt false a v) a v) v = Val d) by (unfold hurt; rewrite DB; cbn; auto).
          pose proof (oi_val _ _ _ _ _ (iv_o _ _ _ _ I2) _ _ G K2) as V. rewrite Ec in V. destruct V as (l0 & r0 & V1 & V2).
          apply vw_link in V1. rewrite LA in V1. injection V1 as V1 V3. exists d. rewrite (O5 d); auto.
          rewrite L2, V3. cbn [sV with_oF]. rewrite (fr_lv _ _ F1) in *. congruence. }
        destruct L as (d & L). unfold bind. rewrite L. eexists. split; [reflexivity|]. cbn. apply (iv_b _ _ _ _ I2). }
  destruct X as (s' & E & OB). exists s'. split; auto. split; auto. eapply calm_run; [apply (mm_stage_vnode COW raw v)|exact E|auto].
Qed.
