(* Copy-on-write: whatever its state, its failures and its arguments, an
   operation writes to the store only in the volume of its own super block. *)
From Verif Require Import Base AddrModel CowModel CowProofs.
Open Scope Z_scope.

(* Memory only. *)
Record memo (s s' : st) : Prop := mkMemo {
  me_ev : ev s' = ev s; me_nx : nx s <= nx s'; me_sU : sU s' = sU s; me_sV : sV s' = sV s; me_sS : sS s' = sS s;
  me_lv : lv s' = lv s; me_sid : sid s' = sid s; me_boot : boot s' = boot s; me_oF : incl (oF s') (oF s) }.
(* The own volume and the own super block only. *)
Record own (s s' : st) : Prop := mkOwn {
  ow_ev : ev s' = ev s; ow_nx : nx s <= nx s';
  ow_sU : forall l k, l <> lv s -> get (sU s') (l :: k) = get (sU s) (l :: k);
  ow_sV : forall l k, l <> lv s -> get (sV s') (l :: k) = get (sV s) (l :: k);
  ow_sS : forall i, i <> sid s -> get (sS s') [i] = get (sS s) [i];
  ow_lv : lv s' = lv s; ow_sid : sid s' = sid s; ow_boot : boot s' = boot s }.
Lemma memo_refl : forall s, memo s s. Proof. intros; constructor; auto; try lia. apply incl_refl. Qed.
Lemma memo_trans : forall a b c, memo a b -> memo b c -> memo a c.
Proof. intros a b c [] []. constructor; try congruence; try lia. eapply incl_tran; eauto. Qed.
Lemma own_refl : forall s, own s s. Proof. intros; constructor; auto; lia. Qed.
Lemma own_trans : forall a b c, own a b -> own b c -> own a c.
Proof.
  intros a b c [] []. constructor; try congruence; try lia.
  - intros l k N. rewrite ow_sU1 by congruence. auto.
  - intros l k N. rewrite ow_sV1 by congruence. auto.
  - intros i N. rewrite ow_sS1 by congruence. auto.
Qed.
Lemma own_memo : forall s s', memo s s' -> own s s'.
Proof. intros s s' []. constructor; auto; intros; congruence. Qed.

Definition mm {A} (m : M A) : Prop := forall s, memo s (snd (m s)).
Definition om {A} (m : M A) : Prop := forall s, own s (snd (m s)).

Lemma mm_bind : forall A B (m : M A) (f : A -> M B), mm m -> (forall a, mm (f a)) -> mm (bind m f).
Proof.
  intros A B m f Hm Hf s. unfold bind. specialize (Hm s). destruct (m s) as [[a| |] s1]; cbn in *; auto.
  eapply memo_trans; [exact Hm|apply Hf].
Qed.
Lemma om_bind : forall A B (m : M A) (f : A -> M B), om m -> (forall a, om (f a)) -> om (bind m f).
Proof.
  intros A B m f Hm Hf s. unfold bind. specialize (Hm s). destruct (m s) as [[a| |] s1]; cbn in *; auto.
  eapply own_trans; [exact Hm|apply Hf].
Qed.
Lemma mm_ret : forall A (a : A), mm (ret a). Proof. intros A a s. apply memo_refl. Qed.
Lemma mm_err : forall A, mm (@err A). Proof. intros A s. apply memo_refl. Qed.
Lemma mm_bad : forall A, mm (@bad A). Proof. intros A s. apply memo_refl. Qed.
Lemma mm_gets : forall A (f : st -> A), mm (gets f). Proof. intros A a s. apply memo_refl. Qed.
Lemma mm_mod : forall f, (forall s, memo s (f s)) -> mm (mod_st f). Proof. intros f H s. apply H. Qed.
Lemma mm_fail : mm may_fail.
Proof. intros s. unfold may_fail. destruct (oF s) as [|b r] eqn:E; [apply memo_refl|]. constructor; cbn; auto; try lia. rewrite E. apply incl_tl, incl_refl. Qed.
Lemma mm_flipB : mm flipB.
Proof. intros s. unfold flipB. destruct (oB s) as [|b r]; [apply memo_refl|]. constructor; cbn; auto; try lia. apply incl_refl. Qed.
Lemma om_mm : forall A (m : M A), mm m -> om m. Proof. intros A m H s. apply own_memo, H. Qed.

Ltac mem := constructor; cbn; auto; try lia; try apply incl_refl.
Ltac mmt := repeat first
  [ assumption | match goal with |- mm (bind _ _) => apply mm_bind; [|intros] end | apply mm_ret | apply mm_err | apply mm_bad | apply mm_gets | apply mm_fail | apply mm_flipB
  | match goal with |- mm (mod_st _) => apply mm_mod; intros; solve [mem] end
  | match goal with |- mm (match ?x with _ => _ end) => destruct x end
  | match goal with |- mm (let (_, _) := ?x in _) => destruct x end ].

Lemma mm_track : forall k l, mm (track k l). Proof. intros. unfold track. mmt. Qed.
Lemma mm_track_hit : forall k l, mm (track_hit k l). Proof. intros. unfold track_hit. mmt; try apply mm_track. Qed.
Lemma mm_upd : forall l k f, mm (upd_node l k f).
Proof. intros l k f. unfold upd_node. apply mm_mod. intros s. destruct (get (cU s) (l :: k)); mem. Qed.
Lemma mm_forget : forall k, mm (forget_uni k). Proof. intros. unfold forget_uni. mmt. Qed.

(* what follows when a step may be undone *)
Lemma memo_may_fail : forall s r s1, may_fail s = (r, s1) -> memo s s1.
Proof. intros s r s1 H. pose proof (mm_fail s) as M. rewrite H in M. exact M. Qed.
Lemma mm_stage_uni : forall l k r, mm (stage_uni l k r).
Proof.
  intros. unfold stage_uni. mmt; try apply mm_track_hit; try apply mm_track.
  intros s. destruct (may_fail s) as [[u| |] s1] eqn:E; apply memo_may_fail in E.
  - destruct (match a1 with Some (r', n) => if r' =? r then Some n else None | None => None end); cbn;
    (eapply memo_trans; [exact E|]); mem.
  - cbn. eapply memo_trans; [exact E|]; mem.
  - cbn. eapply memo_trans; [exact E|]; mem.
Qed.
Lemma mm_spawn_uni : forall l k r, mm (spawn_uni l k r).
Proof.
  intros. unfold spawn_uni. mmt; try apply mm_track_hit; try apply mm_track.
  intros s. destruct (may_fail s) as [[u| |] s1] eqn:E; apply memo_may_fail in E; cbn; (eapply memo_trans; [exact E|]); mem.
Qed.
Lemma mm_setup : forall l k, mm (setup_spawned l k).
Proof.
  intros. unfold setup_spawned. intros s. unfold bind, gets, mod_st. cbn [fst snd].
  eapply memo_trans; [|apply mm_upd]. mem.
Qed.
Lemma mm_set_main : forall p vs l, mm (p_set_main p vs l).
Proof. intros [[l k]|] vs l'; cbn; [apply mm_upd|]. apply mm_mod. intros. mem. Qed.
Lemma mm_p_bind : forall p vs b l r, mm (p_bind p vs b l r).
Proof. intros [[l k]|] vs b l' r; cbn; [apply mm_upd|]. apply mm_mod. intros. mem. Qed.
Lemma mm_require_main : forall p vs, mm (require_main p vs).
Proof. intros. unfold require_main. mmt; try apply mm_set_main. Qed.
Lemma mm_require_leaf_main : forall l k, mm (require_leaf_main l k).
Proof. intros. unfold require_leaf_main. mmt; try apply mm_upd. Qed.
Lemma mm_spawn_at : forall p vs h b, mm (spawn_at p vs h b).
Proof.
  intros. unfold spawn_at. mmt; try apply mm_require_main; try apply mm_spawn_uni; try apply mm_setup; apply mm_require_leaf_main.
Qed.
Lemma mm_bind_at : forall p vs h b l, mm (bind_at p vs h b l).
Proof. intros. unfold bind_at. mmt; try apply mm_p_bind. Qed.
Lemma mm_clone_at : forall p vs h b l, mm (clone_at p vs h b l).
Proof. intros. unfold clone_at. mmt; try apply mm_spawn_at; try apply mm_upd; try apply mm_bind_at. Qed.
Lemma mm_stage_level : forall m p vs h b, mm (stage_level m p vs h b).
Proof. intros. unfold stage_level. mmt; try apply mm_stage_uni; try apply mm_clone_at. Qed.
Lemma mm_require_level : forall p vs h b, mm (require_level p vs h b).
Proof. intros. unfold require_level. mmt; try apply mm_stage_level; try apply mm_spawn_at; try apply mm_bind_at. Qed.
Lemma mm_walk : forall lvl vs off, (forall p h b, mm (lvl p h b)) -> forall hs p, mm (walk lvl hs p vs off).
Proof. intros lvl vs off H. induction hs as [|h hs IH]; intros p; cbn [walk]; mmt; auto. Qed.
Lemma mm_leaf_of : forall p, mm (leaf_of p). Proof. intros [[l k]|]; cbn; mmt. Qed.
Lemma mm_stage_spmaps : forall m v, mm (stage_spmaps m v).
Proof. intros. unfold stage_spmaps. mmt; [apply mm_walk; intros; apply mm_stage_level|apply mm_leaf_of]. Qed.
Lemma mm_require_spmaps : forall v, mm (require_spmaps v).
Proof. intros. unfold require_spmaps. mmt; [apply mm_walk; intros; apply mm_require_level|apply mm_leaf_of]. Qed.
Lemma mm_resolve_leaf : forall m v, mm (resolve_leaf m v).
Proof. intros. unfold resolve_leaf. mmt; try apply mm_stage_spmaps. Qed.
Lemma mm_llink_of : forall l v, mm (llink_of l v). Proof. intros. unfold llink_of. mmt. Qed.
Lemma mm_set_cv : forall v c, mm (set_cv v c). Proof. intros. unfold set_cv. mmt. Qed.
Lemma mm_get_cv : forall v, mm (get_cv v). Proof. intros. unfold get_cv. mmt. Qed.
Lemma mm_require_stable : forall v, mm (require_stable v).
Proof. intros. unfold require_stable. mmt; try apply mm_stage_spmaps. Qed.
Lemma mm_load : forall l r v, mm (load l r v). Proof. intros. unfold load. mmt. Qed.
Lemma mm_stage_cur : forall v, mm (stage_cur v).
Proof.
  intros. unfold stage_cur. mmt; try apply mm_get_cv; try apply mm_require_stable; try apply mm_resolve_leaf; try apply mm_llink_of;
  try apply mm_load; apply mm_set_cv.
Qed.
Lemma mm_redirty : forall ws, mm (redirty ws).
Proof. induction ws as [|w ws IH]; cbn [redirty]; mmt; try apply mm_get_cv; try apply mm_set_cv. Qed.
Lemma memo_redirty : forall ws s r s1, redirty ws s = (r, s1) -> memo s s1.
Proof. intros ws s r s1 H. pose proof (mm_redirty ws s) as M. rewrite H in M. exact M. Qed.
Lemma mm_pre_clone : forall ws raw v ac, mm (pre_clone ws raw v ac).
Proof.
  induction ws as [|w ws IH]; intros raw v ac; cbn [pre_clone]; mmt; auto.
  intros s. pose proof (mm_stage_cur w s) as Q. destruct (stage_cur w s) as [[u| |] s1]; cbn in Q.
  - eapply memo_trans; [exact Q|apply IH].
  - destruct (redirty ac s1) as [r s2] eqn:E. apply memo_redirty in E. cbn. eapply memo_trans; eauto.
  - destruct (redirty ac s1) as [r s2] eqn:E. apply memo_redirty in E. cbn. eapply memo_trans; eauto.
Qed.
Lemma mm_clone_lbk : forall raw v l, mm (clone_lbk raw v l).
Proof.
  intros. unfold clone_lbk. mmt; [apply mm_pre_clone|]. intros s.
  assert (Q : mm (require_leaf_main l (lkey v) ;;; may_fail)) by (mmt; try apply mm_require_leaf_main).
  specialize (Q s). destruct ((require_leaf_main l (lkey v) ;;; may_fail) s) as [[u| |] s1]; cbn in Q.
  - eapply memo_trans; [exact Q|]. apply mm_bind; [apply mm_upd|intros; apply mm_redirty].
  - destruct (redirty a0 s1) as [r s2] eqn:E. apply memo_redirty in E. cbn. eapply memo_trans; eauto.
  - destruct (redirty a0 s1) as [r s2] eqn:E. apply memo_redirty in E. cbn. eapply memo_trans; eauto.
Qed.
Lemma mm_resolve : forall m raw v, mm (resolve_inspect m raw v).
Proof. intros. unfold resolve_inspect. mmt; try apply mm_resolve_leaf; try apply mm_llink_of; try apply mm_clone_lbk. Qed.
Lemma mm_upd_llink : forall v lr, mm (upd_llink v lr).
Proof. intros. unfold upd_llink. mmt; try apply mm_get_cv; try apply mm_set_cv. Qed.
Lemma mm_stage_vnode : forall m raw v, mm (stage_vnode m raw v).
Proof.
  intros. unfold stage_vnode. mmt; try apply mm_get_cv; try apply mm_resolve; try apply mm_upd_llink; try apply mm_require_stable;
  try apply mm_load; apply mm_set_cv.
Qed.
Lemma mm_modify : forall v f, mm (modify v f).
Proof. intros. unfold modify. mmt; try apply mm_get_cv; try apply mm_set_cv. Qed.
Lemma mm_read : forall v, mm (op_read v).
Proof. intros. unfold op_read. mmt; apply mm_stage_vnode. Qed.
Lemma mm_write : forall rm v f, mm (op_write rm v f).
Proof. intros. unfold op_write. mmt; try apply mm_resolve; try apply mm_stage_vnode; try apply mm_modify. Qed.
Lemma mm_claim : forall v, mm (op_claim v).
Proof. intros. unfold op_claim. mmt; try apply mm_require_spmaps; try apply mm_resolve_leaf; try apply mm_llink_of; try apply mm_upd. Qed.
Lemma mm_spawn : forall v d, mm (op_spawn v d).
Proof. intros. unfold op_spawn. mmt; [apply mm_claim|apply mm_stage_vnode|apply mm_modify]. Qed.

(* ---- what reaches the store ---- *)

Lemma own_punch : forall v s, own s (punch (lv s) v s).
Proof.
  intros v s. constructor; cbn; auto; try lia. intros l k N. apply get_filter. intros x. cbn.
  destruct k as [|k1 [|k2 [|k3 k]]]; auto. replace (l =? lv s) with false by lia. auto.
Qed.
Lemma om_reclaim : forall v, om (op_reclaim v).
Proof.
  intros v s. unfold op_reclaim.
  assert (A : mm (leaf <- require_spmaps v ;; leaf' <- resolve_leaf CUR v ;; llink_of leaf' v ;;;
              c <- gets nx ;; rnd <- gets (fun s => e_rnd (ev s) c 0) ;; ret (leaf, c, rnd))).
  { mmt; try apply mm_require_spmaps; try apply mm_resolve_leaf; apply mm_llink_of. }
  specialize (A s). unfold bind at 1. unfold bind at 1 in A.
  destruct (require_spmaps v s) as [[leaf| |] s1]; cbn [snd] in *; try (apply own_memo; auto; fail).
  unfold bind at 1. unfold bind at 1 in A.
  destruct (resolve_leaf CUR v s1) as [[leaf'| |] s2]; cbn [snd] in *; try (apply own_memo; auto; fail).
  unfold bind at 1. unfold bind at 1 in A.
  destruct (llink_of leaf' v s2) as [[lr| |] s3]; cbn [snd] in *; try (apply own_memo; auto; fail).
  unfold bind, gets, ret in A. cbn [snd] in A.
  eapply own_trans; [apply own_memo; exact A|]. clear A.
  unfold bind at 1, gets at 1. unfold bind at 1, gets at 1. unfold bind at 1, mod_st at 1.
  match goal with |- context [upd_node leaf (lkey v) ?f] => set (g := f) end.
  eapply own_trans; [apply own_memo; instantiate (1 := with_nx (nx s3 + 1) s3); mem|].
  set (s4 := with_nx (nx s3 + 1) s3). clearbody s4.
  unfold bind at 1. pose proof (mm_upd leaf (lkey v) g s4) as U.
  destruct (upd_node leaf (lkey v) g s4) as [[u| |] s5]; cbn in U; try (apply own_memo; auto; fail).
  eapply own_trans; [apply own_memo; exact U|]. unfold bind, gets.
  destruct (get (cU s5) (leaf :: lkey v)); [|apply own_refl]. destruct (leaf_used _ _); [apply own_refl|].
  destruct (n_main (u_node c)); [|apply own_refl]. destruct (z =? lv s5) eqn:E; [|apply own_refl].
  unfold mod_st. cbn [snd]. replace z with (lv s5) by lia. apply own_punch.
Qed.
Lemma om_remove : forall v, om (op_remove v).
Proof.
  intros v. unfold op_remove. apply om_bind; [apply om_mm, mm_resolve|intros]. apply om_bind; [apply om_reclaim|intros].
  apply om_mm, mm_mod. intros. mem.
Qed.

Lemma om_flush_v : forall v, om (op_flush_v v).
Proof.
  intros v s. unfold op_flush_v, bind at 1, get_cv at 1, gets at 1. destruct (get (cV s) (vkey v)) as [c|]; [|apply own_refl].
  destruct (v_dirty c); [|apply own_refl]. unfold bind at 1, gets at 1. unfold bind at 1.
  assert (A : mm (if v_lv c =? lv s then ret tt else lr <- resolve_inspect CUR false v ;; upd_llink v lr))
    by (mmt; [apply mm_resolve|apply mm_upd_llink]).
  specialize (A s). destruct ((if v_lv c =? lv s then ret tt else lr <- resolve_inspect CUR false v ;; upd_llink v lr) s) as [[u| |] s1];
  cbn in A; try (apply own_memo; auto; fail).
  unfold bind at 1, get_cv at 1, gets at 1. destruct (get (cV s1) (vkey v)) as [c1|]; [|apply own_memo; auto].
  destruct (v_lv c1 =? lv s) eqn:E; [|apply own_memo; auto].
  eapply own_trans; [apply own_memo; exact A|]. unfold bind at 1. pose proof (mm_fail s1) as Q.
  destruct (may_fail s1) as [[u1| |] s2]; cbn in Q; try (apply own_memo; auto; fail).
  eapply own_trans; [apply own_memo; exact Q|]. unfold bind, mod_st, set_cv. cbn [snd].
  assert (L : v_lv c1 = lv s2) by (destruct A, Q; rewrite me_lv1, me_lv0; lia).
  constructor; cbn; auto; try lia. intros l k N. rewrite L. apply get_set_other. congruence.
Qed.
Lemma om_flush_u : forall lk, om (op_flush_u lk).
Proof.
  intros lk s. unfold op_flush_u, bind at 1, gets at 1. destruct (get (cU s) lk) as [c|]; [|apply own_refl].
  destruct (u_dirty c); [|apply own_refl]. unfold bind at 1, gets at 1.
  destruct lk as [|l k]; [apply own_refl|]. destruct (l =? lv s) eqn:E; [|apply own_refl].
  unfold bind at 1. pose proof (mm_fail s) as Q.
  destruct (may_fail s) as [[u1| |] s2]; cbn in Q; try (apply own_memo; auto; fail).
  eapply own_trans; [apply own_memo; exact Q|]. unfold mod_st. cbn [snd].
  assert (L : l = lv s2) by (destruct Q; lia).
  constructor; cbn; auto; try lia. intros l' k' N. apply get_set_other. congruence.
Qed.
Lemma om_flush_sb : om op_flush_sb.
Proof.
  unfold op_flush_sb. apply om_bind; [apply om_mm, mm_fail|intros]. intros s. unfold mod_st. cbn [snd].
  constructor; cbn; auto; try lia. intros i N. apply get_set_other. congruence.
Qed.
Lemma om_flush_vs : forall ks, om (flush_vs ks).
Proof.
  induction ks as [|k ks IH]; cbn [flush_vs]; [apply om_mm, mm_ret|]. apply om_bind; auto.
  destruct k as [|k1 [|k2 [|k3 k]]]; try (apply om_mm, mm_ret). apply om_flush_v.
Qed.
Lemma om_flush_us : forall ks, om (flush_us ks).
Proof. induction ks as [|k ks IH]; cbn [flush_us]; [apply om_mm, mm_ret|]. apply om_bind; auto. apply om_flush_u. Qed.
Lemma om_flush : om op_flush.
Proof.
  unfold op_flush. apply om_bind; [apply om_mm, mm_gets|intros]. apply om_bind; [apply om_flush_vs|intros].
  apply om_bind; [apply om_mm, mm_gets|intros]. apply om_bind; [apply om_flush_us|intros].
  apply om_bind; [apply om_flush_sb|intros]. apply om_bind; [apply om_mm, mm_gets|intros].
  destruct a4; apply om_mm; [apply mm_ret|apply mm_err].
Qed.
Lemma mm_evict_v : forall v, mm (op_evict_v v).
Proof.
  intros v. unfold op_evict_v. apply mm_mod. intros s. destruct (get (cV s) (vkey v)) as [c|]; [|apply memo_refl].
  destruct (v_dirty c); [apply memo_refl|mem].
Qed.
Lemma mm_evict_u : forall v, mm (op_evict_u v).
Proof.
  intros v. unfold op_evict_u. apply mm_mod. intros s. destruct (get (cU s) v) as [c|]; [|apply memo_refl].
  destruct (u_dirty c); [apply memo_refl|mem].
Qed.
Lemma mm_drop : mm op_drop_lru. Proof. unfold op_drop_lru. apply mm_mod. intros; mem. Qed.

(* Any operation at all: the own volume, the own super block, and new ones. *)
Record only (s s' : st) : Prop := mkOnly {
  on_ev : ev s' = ev s; on_nx : nx s <= nx s';
  on_sU : forall l k, l <> lv s -> get (sU s') (l :: k) = get (sU s) (l :: k);
  on_sV : forall l k, l <> lv s -> get (sV s') (l :: k) = get (sV s) (l :: k);
  on_sS : forall i, i <> sid s -> i < nx s -> get (sS s') [i] = get (sS s) [i] }.
Lemma only_own : forall s s', own s s' -> only s s'. Proof. intros s s' []. constructor; auto. Qed.

Lemma only_fork : forall s, only s (snd (op_fork s)).
Proof.
  intros s. unfold op_fork, bind at 1. pose proof (om_flush s) as A.
  destruct (op_flush s) as [[u| |] s1]; cbn in A; try (apply only_own; exact A).
  unfold bind at 1, mod_st at 1. unfold bind at 1, gets at 1.
  assert (B : own s (with_uam [] s1)) by (eapply own_trans; [exact A|]; apply own_memo; mem).
  set (s2 := with_uam [] s1) in *. clearbody s2. clear A s1.
  unfold bind at 1, clone_rebind, bind at 1. pose proof (mm_fail s2) as Q.
  destruct (may_fail s2) as [[u1| |] s3]; cbn in Q;
  assert (C : own s s3) by (eapply own_trans; [exact B|apply own_memo; exact Q]); try (apply only_own; exact C).
  clear B Q. pose proof (ow_nx _ _ C) as NX. 
  unfold bind, gets, mod_st, ret, flipB. 
  cbn [nx sb boot uam with_ids with_sbd with_sb with_nx with_oF with_uam with_sS oB oF sS].
  destruct (oB s3) as [|[] bs].
  - destruct C. constructor; cbn; auto; try lia.
    intros i N L. rewrite !get_set_other; auto; intros E; injection E; lia.
  - destruct C. constructor; cbn; auto; lia.
  - destruct C. constructor; cbn; auto; try lia.
    intros i N L. rewrite !get_set_other; auto; intros E; injection E; lia.
Qed.
Lemma only_remount : forall s, only s (snd (op_remount s)).
Proof.
  intros s. unfold op_remount, bind at 1. pose proof (om_flush s) as A.
  destruct (op_flush s) as [[u| |] s1]; cbn in A; try (apply only_own; exact A).
  unfold bind, gets. destruct (get (sS s1) [boot s1]); [|apply only_own; exact A].
  destruct A. constructor; cbn; auto.
Qed.

Lemma run_op_ret : forall A (m : M A) (f : A -> answer) s, snd ((x <- m ;; ret (f x)) s) = snd (m s).
Proof. intros. unfold bind. destruct (m s) as [[a| |] s1]; auto. Qed.

(* Every operation but those two. *)
Lemma own_op : forall o s, o <> Fork -> o <> Remount -> own s (snd (run_op o s)).
Proof.
  intros o s N1 N2. destruct o; cbn [run_op]; try congruence; rewrite run_op_ret;
  try (apply own_memo; first [apply mm_read|apply mm_write|apply mm_claim|apply mm_spawn|apply mm_evict_v|apply mm_evict_u|apply mm_drop]; fail).
  - apply om_remove.
  - apply om_flush_v.
  - apply om_flush_u.
  - apply om_flush_sb.
Qed.
Lemma only_op : forall o s, only s (snd (run_op o s)).
Proof.
  intros o s. destruct o; try (apply only_own, own_op; congruence); cbn [run_op]; rewrite run_op_ret.
  - apply only_remount.
  - apply only_fork.
Qed.
