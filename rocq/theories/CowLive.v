(* Copy-on-write: when no call below fails, whatever is known to be there can be
   read. *)
From Verif Require Import Base AddrModel CowModel CowSpec CowProofs CowWalk CowObj CowCopy CowOps CowFrame.
Open Scope Z_scope.

Lemma calm_incl : forall f g, calm g -> incl f g -> calm f.
Proof.
  unfold calm. intros f g H I. rewrite forallb_forall in *. auto.
Qed.
Lemma calm_mm : forall A (m : M A) s, mm m -> calm (oF s) -> calm (oF (snd (m s))).
Proof. intros A m s H C. eapply calm_incl; [exact C|]. apply (me_oF _ _ (H s)). Qed.
Lemma calm_run : forall A (m : M A) s r s', mm m -> m s = (r, s') -> calm (oF s) -> calm (oF s').
Proof. intros A m s r s' H E C. pose proof (calm_mm _ _ s H C) as Q. rewrite E in Q. auto. Qed.
Lemma calm_ok : forall s, calm (oF s) -> exists f, may_fail s = (Ok tt, with_oF f s) /\ calm f.
Proof.
  intros s C. unfold may_fail. destruct (oF s) as [|b r] eqn:E.
  - exists []. split; [f_equal; destruct s; cbn in *; subst; auto|reflexivity].
  - unfold calm in C. cbn in C. apply andb_true_iff in C as [C1 C2]. destruct b; [discriminate|]. exists r. auto.
Qed.

Lemma parent_there : forall F T s vs h off, NIs F T s -> 2 <= h <= 5 -> 0 <= off < top ->
  T [vs; h; base h off] <> None -> T [vs; h + 1; base (h + 1) off] <> None.
Proof.
  intros F T s vs h off I Hh Ho H N.
  pose proof (ni_link _ _ _ _ _ _ _ I vs h (base h off) (wfk_of vs h off ltac:(lia) Ho)) as L.
  unfold lnk, lnr in L. replace (h =? 6) with false in L by lia. rewrite base_up, N in L by lia.
  destruct (T [vs; h; base h off]); [|congruence]. destruct L; discriminate.
Qed.

Lemma stage_uni_live : forall F T s k x, NIs F T s -> oB s = [] -> calm (oF s) -> T k = Some x ->
  exists s', stage_uni (t_l x) k (t_r x) s = (Ok tt, s').
Proof.
  intros F T s k x I OB C Hk. unfold stage_uni, bind at 1, gets at 1.
  destruct (get (cU s) (t_l x :: k)) as [c|] eqn:Hc.
  - unfold track_hit, bind, gets. destruct (uam_find (uam s) k); [eexists; reflexivity|].
    unfold track, bind, flipB. rewrite OB. eexists; reflexivity.
  - destruct (calm_ok s C) as (f & E & Cf). unfold bind at 1. rewrite E.
    unfold track. unfold bind at 1. unfold bind at 1, flipB. cbn [oB with_oF]. rewrite OB. unfold mod_st.
    unfold bind, gets. cbn [sU with_uam with_oF].
    pose proof (ni_cell _ _ _ _ _ _ _ I _ _ Hk) as Q. unfold cellok in Q. rewrite Hc in Q. rewrite Q, Z.eqb_refl.
    match goal with |- context [may_fail ?z] => destruct (calm_ok z) as (f2 & E2 & _); [exact Cf|]; rewrite E2 end.
    eexists; reflexivity.
Qed.

Lemma stage_level_live : forall F T s p vs h b, NIs F T s -> oB s = [] -> calm (oF s) -> wfk [vs; h; b] ->
  parok T s CUR p vs h b -> T [vs; h; b] <> None -> exists l s', stage_level CUR p vs h b s = (Ok l, s').
Proof.
  intros F T s p vs h b I OB C W P N. unfold stage_level. cbv zeta. unfold bind at 1, gets at 1.
  assert (DIR : exists l s', (kd <- gets (fun s => p_kid s p vs b);;
     match kd with
     | Some l => r <- gets (fun s => p_riv s p vs b);; stage_uni l [vs; h; b] r;;;
           (if acc CUR l s then ret l else clone_at p vs h b l)
     | None => err
     end) s = (Ok l, s')).
  { unfold bind at 1, gets at 1. destruct (parok_vals _ _ _ _ _ _ _ _ I P) as [PK PR]. rewrite PK.
    pose proof (ni_link _ _ _ _ _ _ _ I _ _ _ W) as L. destruct (T [vs; h; b]) as [x|] eqn:Tk; [|congruence].
    destruct L as [L1 L2]. rewrite L1. unfold bind at 1, gets at 1. rewrite PR, L2. unfold bind at 1.
    destruct (stage_uni_live _ _ _ _ _ I OB C Tk) as (s1 & ->). do 2 eexists. reflexivity. }
  destruct (fcached s [vs; h; b]) as [l|]; auto. cbn [acc is_cow negb orb]. do 2 eexists. reflexivity.
Qed.

Lemma walk_live : forall F vs off, 0 <= off < top -> forall hs h T s p, chain h hs -> NIs F T s -> oB s = [] ->
  calm (oF s) -> (1 <= h -> forall h', 2 <= h' <= h -> T [vs; h'; base h' off] <> None) ->
  parok T s CUR p vs h (base h off) ->
  exists p' s', walk (fun p h b => stage_level CUR p vs h b) hs p vs off s = (Ok p', s').
Proof.
  intros F vs off Ho. induction hs as [|h' hs IH]; intros h T s p CH I OB C HT P; cbn [chain] in CH.
  - do 2 eexists. reflexivity.
  - destruct CH as (-> & Hh & CH). cbn [walk]. unfold bind.
    assert (W := wfk_of vs h off ltac:(lia) Ho).
    destruct (stage_level_live _ _ _ _ _ _ _ I OB C W P) as (l & s1 & E). { apply HT; lia. }
    unfold ukey in E. rewrite E.
    destruct (stage_level_ok _ _ _ _ _ _ _ _ _ _ I OB W P E) as (T1 & W1 & _ & O1).
    assert (T1 = T) by (destruct W1 as (_ & _ & _ & Q); auto). subst T1.
    destruct (O1 l eq_refl) as (x & X1 & X2 & X3 & X4). destruct W1 as (I1 & F1 & _ & _).
    apply (IH (h - 1) T s1); auto.
    + destruct F1; congruence.
    + eapply calm_run; [|exact E|auto]. apply mm_stage_level.
    + intros _ h' Hh'. apply HT; lia.
    + unfold parok. replace (h - 1 =? 6) with false by lia.
      rewrite base_up1 by lia. replace (h - 1 + 1) with h by lia. exists l, x. repeat split; auto.
Qed.

Lemma stage_spmaps_live : forall F T s v, NIs F T s -> oB s = [] -> calm (oF s) -> 0 <= snd v < top ->
  T (lkey v) <> None -> exists l s', stage_spmaps CUR v s = (Ok l, s').
Proof.
  intros F T s v I OB C Ho N. unfold stage_spmaps, bind.
  assert (HT : forall h', 2 <= h' <= 6 -> T [fst v; h'; base h' (snd v)] <> None).
  { change (lkey v) with [fst v; 2; base 2 (snd v)] in N.
    assert (N3 := parent_there _ _ _ _ 2 (snd v) I ltac:(lia) Ho N).
    assert (N4 := parent_there _ _ _ _ 3 (snd v) I ltac:(lia) Ho N3).
    assert (N5 := parent_there _ _ _ _ 4 (snd v) I ltac:(lia) Ho N4).
    assert (N6 := parent_there _ _ _ _ 5 (snd v) I ltac:(lia) Ho N5).
    intros h' Hh. destruct (height_cases h' Hh) as [->|[->|[->|[->| ->]]]]; auto. }
  destruct (walk_live F (fst v) (snd v) Ho levels 6 T s None chain_levels I OB C) as (p & s1 & E); auto.
  { reflexivity. }
  rewrite E.
  destruct (walk_ok F CUR (fst v) (snd v) (fun p h b => stage_level CUR p (fst v) h b) Ho
    ltac:(intros; eapply stage_level_ok; eauto; apply wfk_of; auto)
    levels 6 T s None _ _ chain_levels I OB ltac:(reflexivity) E) as (T1 & W1 & N1 & O1).
  destruct (O1 p eq_refl) as (l & xp & -> & _). cbn. do 2 eexists. reflexivity.
Qed.

Lemma resolve_leaf_live : forall F T s v, NIs F T s -> oB s = [] -> calm (oF s) -> 0 <= snd v < top ->
  T (lkey v) <> None -> exists l s', resolve_leaf CUR v s = (Ok l, s').
Proof.
  intros F T s v I OB C Ho N. unfold resolve_leaf, bind, gets. destruct (fcached s (lkey v)) as [l|].
  - cbn [acc is_cow negb orb]. do 2 eexists. reflexivity.
  - eapply stage_spmaps_live; eauto.
Qed.

Lemma vw_leaf : forall T v, vw T v <> None -> T (lkey v) <> None.
Proof. unfold vw. intros T v H. destruct (T (lkey v)); congruence. Qed.

Lemma op_read_live : forall F T a s v d, Inv F T a s -> good_vad v -> calm (oF s) -> f_cell a v = Val d ->
  exists s', op_read v s = (Ok d, s').
Proof.
  intros F T a s v d I G C HV.
  assert (X : exists s1, stage_vnode CUR false v s = (Ok tt, s1)).
  { unfold stage_vnode, bind at 1, get_cv at 1, gets at 1. unfold bind at 1, gets at 1.
    destruct (get (cV s) (vkey v)) as [c|] eqn:E. { cbn [acc is_cow negb orb]. eexists. reflexivity. }
    pose proof (oi_val _ _ _ _ _ (iv_o _ _ _ _ I) _ _ G HV) as V. rewrite E in V. destruct V as (l0 & r0 & V1 & V2).
    assert (VN : vw T v <> None) by congruence. assert (LN := vw_leaf _ _ VN).
    (* require_stable *)
    destruct (stage_spmaps_live _ _ _ v (iv_n _ _ _ _ I) (iv_b _ _ _ _ I) C (good_range v G) LN) as (l & s1 & E1).
    destruct (stage_spmaps_ok F T s CUR v _ s1 (iv_n _ _ _ _ I) (iv_b _ _ _ _ I) (good_range v G) E1) as (T1 & W1 & N1 & O1).
    assert (T1 = T) by (destruct W1 as (_ & _ & _ & Q); auto). subst T1.
    assert (I1 := Inv_walk _ _ _ _ _ _ _ I W1). destruct W1 as (NI1 & F1 & _ & _).
    assert (C1 : calm (oF s1)) by (eapply calm_run; [apply (mm_stage_spmaps CUR v)|exact E1|auto]).
    unfold bind at 1. unfold require_stable at 1, bind at 1. rewrite E1. unfold bind, gets.
    rewrite (proj2 (allocated_ok _ _ _ _ _ _ NI1 (O1 l eq_refl)) VN). unfold ret at 1.
    (* resolve *)
    destruct (resolve_leaf_live _ _ _ v NI1 (iv_b _ _ _ _ I1) C1 (good_range v G) LN) as (l2 & s2 & E2).
    destruct (resolve_leaf_cur _ _ _ _ _ _ _ I1 G E2) as (I2 & F2 & N2 & O2).
    assert (C2 : calm (oF s2)) by (eapply calm_run; [apply (mm_resolve_leaf CUR v)|exact E2|auto]).
    unfold resolve_inspect, bind. rewrite E2. destruct (llink_of l2 v s2) as [r3 s3] eqn:E3.
    destruct (llink_of_ok _ _ _ _ _ _ _ _ (iv_n _ _ _ _ I2) (O2 l2 eq_refl) E3) as (-> & N3 & _ & O4).
    rewrite (O4 _ _ (vw_link _ _ _ V1)). unfold gets. cbn [acc is_cow negb orb]. unfold ret at 1.
    destruct (calm_ok s2 C2) as (f & E4 & Cf). rewrite E4. unfold get_cv, gets.
    assert (CV2 : cV s2 = cV s) by (rewrite (fr_cV _ _ F2), (fr_cV _ _ F1); auto).
    change (cV (with_oF f s2)) with (cV s2). rewrite CV2, E. cbn [fst snd].
    destruct (load l0 r0 v (with_oF f s2)) as [r5 s5] eqn:E5. destruct (load_ok _ _ _ _ _ _ E5) as (-> & _ & O5).
    rewrite (O5 d).
    - eexists. reflexivity.
    - cbn. rewrite (fr_sV _ _ F2), (fr_sV _ _ F1). auto. }
  destruct X as (s1 & E1). destruct (op_read v s) as [r s'] eqn:E.
  pose proof (op_read_ok _ _ _ _ _ _ _ I G E) as (_ & _ & _ & O).
  unfold op_read, bind in E. rewrite E1 in E.
  destruct (stage_vnode_cur _ _ _ _ _ _ _ I G E1) as (_ & _ & _ & O1). specialize (O1 eq_refl).
  unfold get_cv, gets in E. destruct (get (cV s1) (vkey v)) as [c|]; [|congruence]. injection E as <- <-.
  destruct (O _ eq_refl) as [Q|Q]; [congruence|]. rewrite HV in Q. injection Q as ->. eexists. reflexivity.
Qed.
