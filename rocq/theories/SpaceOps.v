(* Every operation on the space keeps its invariant and changes the ledger as stated. *)
From Verif Require Import Base AddrModel MapModel SpaModel SpaProofs SpaceModel SpaceBits SpaceLeaf SpaceProofs.

Local Opaque sumn popcount.

(* the ledger changes at one object only, whose leaf is replaced *)
Lemma inv_upd : forall refs wr N refs' wr' s t v l l' d e, inv refs wr N s -> isv t -> 0 <= v -> v mod usz t = 0 ->
  sv_leaf s t (leaf_index v) = Some l ->
  (forall t' v', (t', v') <> (t, v) -> refs' t' v' = refs t' v' /\ wr' t' v' = wr t' v') ->
  0 <= refs' t v -> (1 < refs' t v -> t = LT_DATABK) ->
  (0 < refs' t v -> forall b, v <= b < v + usz t -> cnt (sv_cache s t) b = 0) ->
  leaf_inv refs' wr' t (leaf_index v) l' ->
  inv refs' wr' (fset N t (N t + d)) (stats_add (set_leaf s t (leaf_index v) l') t d e).
Proof.
  intros refs wr N refs' wr' s t v l l' d e [I1 [I2 [I3 I4]]] Ht Hv Ha Hl He H0 H1 Hc HL.
  set (s' := stats_add (set_leaf s t (leaf_index v) l') t d e).
  assert (LF : forall t' i', sv_leaf s' t' i' = if (t' =? t) && (i' =? leaf_index v) then Some l' else sv_leaf s t' i') by reflexivity.
  assert (HH : forall t' w, has_leaf t' w s -> has_leaf t' w s').
  { intros t' w [x Hx]. unfold has_leaf. rewrite LF. destruct (_ && _); eauto. }
  split; [|split; [|split]].
  - intros t' w. destruct (I1 t' w) as [A B]. assert (D : (t', w) = (t, v) \/ (t', w) <> (t, v)).
    { destruct (Z.eq_dec t' t); destruct (Z.eq_dec w v); subst; auto; right; congruence. }
    destruct D as [D|D].
    + injection D as -> ->. split; [auto|]. intros _. split; [auto|]. split; [auto|]. split; [auto|]. split; [auto|].
      apply HH. exists l. auto.
    + unfold ref_ok. destruct (He _ _ D) as [-> _]. split; [auto|]. intros H. destruct (B H) as [B1 [B2 [B3 [B5 B6]]]].
      split; [auto|]. split; [auto|]. split; [auto|]. split; auto.
  - intros t' i' x Ht' Hx. rewrite LF in Hx. destruct ((t' =? t) && (i' =? leaf_index v)) eqn:E.
    + injection Hx as <-. assert (t' = t /\ i' = leaf_index v) as [-> ->] by lia. split; [|auto]. apply (I2 t _ l Ht Hl).
    + destruct (I2 t' i' x Ht' Hx) as [J1 [J2 J3]]. split; [auto|]. split; [|auto]. intros k Hk.
      apply slot_inv_ext with (refs := refs) (wr := wr); [|auto]. intros j Hj.
      destruct (He t' (addr t' i' k j)) as [E1 E2]; [|rewrite E1, E2; auto].
      intros X. injection X as X1 X2. destruct (addr_leaf t' i' k j Ht' (proj1 J1) Hk Hj) as [_ [Y _]]. rewrite X2 in Y. lia.
  - intros t' Ht'. destruct (I3 t' Ht') as [C1 [C2 [C3 [C4 C5]]]]. split; [exact C1|]. split; [exact C2|]. split; [exact C3|].
    split; [exact C4|]. intros b Hb. destruct (C5 b Hb) as [D1 [D2 D3]]. split; [auto|]. split; [auto|].
    set (w := b - b mod usz t') in *.
    assert (D : (t', w) = (t, v) \/ (t', w) <> (t, v)).
    { destruct (Z.eq_dec t' t); destruct (Z.eq_dec w v); subst; auto; right; congruence. }
    destruct D as [D|D]; [|destruct (He _ _ D) as [-> _]; auto].
    injection D as Dt Dw. rewrite Dw, Dt. rewrite Dt in Hb. change (sv_cache s' t) with (sv_cache s t) in Hb.
    pose proof (usz_pos t Ht) as [Up _]. destruct (Z.eq_dec (refs' t v) 0); auto.
    rewrite (Hc ltac:(lia) b) in Hb; [lia|]. unfold w in Dw. rewrite Dt in Dw. pose proof (Z.mod_pos_bound b (usz t) ltac:(lia)). lia.
  - intros t' Ht'. unfold fset at 1. destruct (Z.eqb_spec t' t) as [->|Hn].
    + unfold s'. rewrite objs_add_same. change (objs (set_leaf s t (leaf_index v) l') t) with (objs s t). rewrite I4 by auto. lia.
    + unfold s'. rewrite objs_add_other by auto. apply I4; auto.
Qed.

Lemma stats_add_0 : forall refs wr N N' s t d e, inv refs wr N (stats_add s t d e) -> (forall t', isv t' -> N' t' = objs s t') -> inv refs wr N' s.
Proof.
  intros refs wr N N' s t d e [I1 [I2 [I3 I4]]] H. split; [exact I1|]. split; [exact I2|]. split; [exact I3|].
  intros t' Ht'. symmetry. auto.
Qed.
Lemma inv_upd0 : forall refs wr N refs' wr' s t v l l', inv refs wr N s -> isv t -> 0 <= v -> v mod usz t = 0 ->
  sv_leaf s t (leaf_index v) = Some l ->
  (forall t' v', (t', v') <> (t, v) -> refs' t' v' = refs t' v' /\ wr' t' v' = wr t' v') ->
  0 <= refs' t v -> (1 < refs' t v -> t = LT_DATABK) ->
  (0 < refs' t v -> forall b, v <= b < v + usz t -> cnt (sv_cache s t) b = 0) ->
  leaf_inv refs' wr' t (leaf_index v) l' ->
  inv refs' wr' N (set_leaf s t (leaf_index v) l').
Proof.
  intros refs wr N refs' wr' s t v l l' HI Ht Hv Ha Hl He H0 H1 Hc HL.
  pose proof (inv_upd refs wr N refs' wr' s t v l l' 0 0 HI Ht Hv Ha Hl He H0 H1 Hc HL) as U.
  apply stats_add_0 with (N' := N) in U; auto. intros t' Ht'. destruct HI as [_ [_ [_ I4]]]. symmetry. exact (I4 t' Ht').
Qed.

(* the count may be given in another form *)
Lemma inv_N : forall refs wr N N' s, inv refs wr N s -> (forall t, isv t -> N' t = N t) -> inv refs wr N' s.
Proof. intros refs wr N N' s [I1 [I2 [I3 I4]]] H. split; [|split; [|split]]; auto. intros t Ht. rewrite H by auto. auto. Qed.

Lemma empty_cache : forall refs s t m, isv t -> 0 <= sp_hint m -> sp_lifo m = [] -> sp_ents m = [] -> sp_ulen m = usz t ->
  sv_cache s t = m -> cache_ok refs s t.
Proof.
  intros refs s t m Ht Hh E1 E2 E3 <-. pose proof (usz_pos t Ht) as [Up _]. unfold cache_ok.
  assert (C0 : forall b, cnt (sv_cache s t) b = 0) by (intros; apply spa_empty_cnt; auto).
  split; [|split; [|split; [|split]]].
  - split; [intros b; rewrite C0; lia|]. rewrite E2. split; [constructor|]. split; [constructor|]. lia.
  - split; [auto|]. rewrite E2. constructor.
  - unfold al_inv. rewrite E1, E2. split; constructor.
  - auto.
  - intros b Hb. rewrite C0 in Hb. lia.
Qed.

Section OPS.
Variable refs : Z -> Z -> Z.
Variable wr : Z -> Z -> bool.
Variable N : Z -> Z.
Notation I := (inv refs wr N).

Lemma has_leaf_end : forall s t v, I s -> isv t -> 0 <= v -> v mod usz t = 0 -> has_leaf t v s -> v + usz t <= VSPACE_END.
Proof.
  intros s t v [_ [I2 _]] Ht Hv Ha [l Hl]. destruct (I2 t _ l Ht Hl) as [[J1 J2] _]. pose proof (usz_pos t Ht) as [Up Um].
  unfold NLEAVES in J2. unfold leaf_index in J2.
  assert (Z.divide (usz t) 65536) as [q Hq] by (apply Z.mod_divide; lia).
  assert (Z.divide (usz t) v) as [p Hp] by (apply Z.mod_divide; lia).
  assert (v < VSPACE_END) by (unfold VSPACE_END, LEAF_SPAN, LBK_SIZE, NCHILDS in *; lia).
  assert (VE : VSPACE_END = usz t * (q * 2 ^ 42)) by (unfold VSPACE_END; lia).
  rewrite VE in *. subst v. set (K := q * 2 ^ 42) in *. clearbody K. clear - H Up. set (u := usz t) in *. clearbody u.
  assert (p < K) by (apply (Z.mul_lt_mono_pos_l u); lia). assert ((p + 1) * u <= K * u) by (apply Z.mul_le_mono_nonneg_r; lia). lia.
Qed.

Lemma leaf_of : forall s t v l, I s -> isv t -> sv_leaf s t (leaf_index v) = Some l -> leaf_inv refs wr t (leaf_index v) l.
Proof. intros s t v l [_ [I2 _]] Ht Hl. apply (I2 t _ l Ht Hl). Qed.

Lemma live_uncached : forall s t v, I s -> isv t -> 0 < refs t v -> forall b, v <= b < v + usz t -> cnt (sv_cache s t) b = 0.
Proof.
  intros s t v [I1 [_ [I3 _]]] Ht Hr b Hb. destruct (I1 t v) as [_ B]. destruct (B Hr) as [_ [B1 [B2 _]]].
  destruct (I3 t Ht) as [_ [_ [_ [_ C5]]]]. pose proof (cache_nn (sv_cache s t) b). pose proof (usz_pos t Ht) as [Up _].
  destruct (Z.eq_dec (cnt (sv_cache s t) b) 0); auto. destruct (C5 b) as [_ [_ C]]; [lia|].
  replace (b - b mod usz t) with v in C; [clear - C Hr; lia|].
  assert (b = usz t * (v / usz t) + (b - v)) by (pose proof (Z.div_mod v (usz t)); lia).
  assert (b mod usz t = b - v) by (symmetry; apply Z.mod_unique with (q := v / usz t); lia). lia.
Qed.

Lemma cand_viewp : forall t v, isv t -> viewp (fun s => I s /\ cand refs t v s).
Proof.
  intros t v Ht s s' V [HI [[F1 [F2 [F3 F4]]] C]]. split; [apply inv_view with (s := s); auto|].
  split; [split; [auto|]; split; [auto|]; split; [auto|]; apply has_leaf_view with (s := s); auto|].
  intros b Hb. destruct V as [_ [V2 _]]. rewrite V2 by auto. auto.
Qed.

Lemma set_cache_hint : forall refs' wr' N' s t h, inv refs' wr' N' s -> isv t -> 0 <= h ->
  let m := sv_cache s t in inv refs' wr' N' (set_cache s t (mkSpa (sp_lifo m) (sp_ulen m) (sp_ents m) (sp_cap m) h)).
Proof.
  intros refs' wr' N' s t h HI Ht Hh m. apply inv_set_cache; auto. pose proof HI as [_ [_ [I3 _]]].
  destruct (I3 t Ht) as [C1 [C2 [C3 [C4 C5]]]].
  unfold cache_ok. cbn [set_cache sv_cache]. rewrite fset_same. fold m in C1, C2, C3, C5.
  split; [exact C1|]. split; [exact C2|]. split; [exact C3|]. split; [exact Hh|]. exact C5.
Qed.

Lemma tri_claim : forall t, isv t -> tri I I (claim t)
  (fun v s => inv (at1 refs t v 1) (at1 wr t v false) (fset N t (N t + 1)) s /\
              refs t v = 0 /\ 0 <= v /\ v mod usz t = 0 /\ v + usz t <= VSPACE_END).
Proof.
  intros t Ht. unfold claim. eapply tri_bind with (Q := fun _ => I).
  { unfold check_avail. apply tri_get. intros s0 H0. destruct (_ && _); [apply tri_ret|apply tri_stop; auto]; intros s ->; auto. }
  intros _. eapply tri_bind; [apply tri_unalloc; auto|]. intros v. cbv beta.
  eapply tri_bind with (Q := fun _ s => I s /\ cand refs t v s).
  { unfold check_want. destruct (off_isnull v); [apply tri_stop; auto; tauto|]. destruct (_ <=? _); [apply tri_ret; auto|apply tri_stop; auto; tauto]. }
  intros _. eapply tri_bind with (Q := fun _ s => I s /\ cand refs t v s).
  { apply tri_spmaps_there; [apply cand_viewp; auto|tauto|]. intros s [_ [[_ [_ [_ X]]] _]]. exact X. }
  intros _. eapply tri_bind with (Q := fun _ s => I s /\ cand refs t v s); [apply tri_may_fail; tauto|]. intros _.
  eapply tri_bind.
  2:{ intros ?. apply tri_ret. intros s H. exact H. }
  unfold mark. apply tri_with_leaf; [tauto|]. intros s0 l [HI HC] Hl. apply tri_put. intros s ->.
  destruct HC as [[F1 [F2 [F3 F4]]] C]. pose proof (leaf_of s0 t v l HI Ht Hl) as HL.
  split; [|split; [auto|]; split; [auto|]; split; [auto|]; apply (has_leaf_end s0); auto].
  apply set_cache_hint; auto. apply inv_upd with (refs := refs) (wr := wr) (l := l); auto.
  - intros t' v' Hn. split; apply at1_other; auto.
  - rewrite at1_same. lia.
  - rewrite at1_same. lia.
  - apply mark_inv; auto.
Qed.

Lemma live_viewp : forall t v, isv t -> viewp (fun s => I s /\ has_leaf t v s).
Proof. intros t v Ht s s' V [HI F]. split; [apply inv_view with (s := s); auto|apply has_leaf_view with (s := s); auto]. Qed.

Lemma tri_live_maps : forall t v, isv t -> 0 < refs t v ->
  tri I I (require_spmaps t v) (fun _ => I).
Proof.
  intros t v Ht Hr. apply tri_pre with (P' := fun s => I s /\ has_leaf t v s).
  { intros s HI. split; auto. destruct HI as [I1 _]. destruct (I1 t v) as [_ B]. destruct (B Hr) as [_ [_ [_ [_ B4]]]]. exact B4. }
  eapply tri_post; [apply tri_spmaps_there; [apply live_viewp; auto|tauto|tauto]|]. cbv beta. tauto.
Qed.

Lemma ref_facts : forall s t v, I s -> 0 < refs t v -> isv t /\ 0 <= v /\ v mod usz t = 0 /\ (1 < refs t v -> t = LT_DATABK) /\ has_leaf t v s.
Proof. intros s t v [I1 _] H. apply I1. auto. Qed.

Lemma tri_reclaim : forall t v, 0 < refs t v -> tri I I (reclaim t v)
  (fun _ s => inv (at1 refs t v (refs t v - 1)) wr (if refs t v =? 1 then fset N t (N t - 1) else N) s).
Proof.
  intros t v Hr s o HI. destruct (ref_facts s t v HI Hr) as [Ht [Hv [Ha [Hs _]]]]. revert s o HI.
  change (tri I I (reclaim t v) (fun _ s => inv (at1 refs t v (refs t v - 1)) wr (if refs t v =? 1 then fset N t (N t - 1) else N) s)).
  unfold reclaim. eapply tri_bind; [apply tri_live_maps; auto|]. intros ?. eapply tri_bind; [apply tri_may_fail; auto|]. intros ?.
  apply tri_with_leaf; [auto|]. intros s0 l HI Hl. pose proof (leaf_of s0 t v l HI Ht Hl) as HL.
  destruct (unref_inv refs wr t v l Ht Hv Ha Hr Hs HL) as [UI UD]. set (l' := unref_allocated l t v) in *.
  pose proof (live_uncached s0 t v HI Ht Hr) as LU.
  set (refs' := at1 refs t v (refs t v - 1)) in *.
  assert (R' : refs' t v = refs t v - 1) by apply at1_same.
  assert (RO : forall t' v', (t', v') <> (t, v) -> refs' t' v' = refs t' v' /\ wr t' v' = wr t' v').
  { intros t' v' Hn. split; auto. apply at1_other; auto. }
  eapply tri_bind with (Q := fun _ s => s = set_leaf s0 t (leaf_index v) l'); [apply tri_put; intros s ->; reflexivity|].
  intros _. rewrite UD. destruct (Z.ltb_spec 0 (refs t v - 1)) as [Hg|Hg].
  - apply tri_ret. intros s ->. destruct (Z.eqb_spec (refs t v) 1); [lia|].
    apply inv_upd0 with (refs := refs) (wr := wr) (l := l); auto; rewrite R'; intros; try lia; apply Hs; lia.
  - destruct (Z.eqb_spec (refs t v) 1) as [E1|]; [|lia].
    assert (IU : inv refs' wr (fset N t (N t + -1)) (stats_add (set_leaf s0 t (leaf_index v) l') t (-1) 0)).
    { apply inv_upd with (refs := refs) (wr := wr) (l := l); auto; rewrite R'; intros; lia. }
    eapply tri_bind with (Q := fun _ s => s = stats_add (set_leaf s0 t (leaf_index v) l') t (-1) 0); [apply tri_put; intros s ->; reflexivity|].
    intros _ s o ->. pose proof (usz_pos t Ht) as [Up _].
    pose proof (tri_store refs' wr (fset N t (N t + -1)) t v (usz t) Ht) as TS.
    assert (Um : usz t mod usz t = 0) by (apply Z.mod_same; lia). specialize (TS ltac:(lia) Ha Um).
    specialize (TS (stats_add (set_leaf s0 t (leaf_index v) l') t (-1) 0) o).
    change (ltype_size t) with (usz t).
    assert (P : inv refs' wr (fset N t (N t + -1)) (stats_add (set_leaf s0 t (leaf_index v) l') t (-1) 0) /\
      (forall b, v <= b < v + usz t -> cnt (sv_cache (stats_add (set_leaf s0 t (leaf_index v) l') t (-1) 0) t) b = 0 /\
        free_byte refs' (stats_add (set_leaf s0 t (leaf_index v) l') t (-1) 0) t b)).
    { split; [auto|]. intros b Hb. split; [apply LU; auto|].
      assert (MB : b mod usz t = b - v).
      { symmetry. apply Z.mod_unique with (q := v / usz t); [lia|]. pose proof (Z.div_mod v (usz t)). lia. }
      assert (LB : leaf_index b = leaf_index v).
      { destruct (voff_parts t v Ht Hv Ha) as [_ _]. pose proof (usz_pos t Ht) as [_ Um2].
        assert (D1 : Z.divide (usz t) LEAF_SPAN).
        { apply Z.mod_divide in Um2; [|lia]. unfold LEAF_SPAN, LBK_SIZE. apply Z.divide_mul_l. auto. }
        destruct D1 as [q Hq]. unfold leaf_index. rewrite Hq.
        assert (q > 0) by (unfold LEAF_SPAN, LBK_SIZE, NCHILDS in Hq; nia).
        rewrite (Z.mul_comm q). rewrite <- !Z.div_div by lia.
        assert (b / usz t = v / usz t) as ->; [|reflexivity].
        symmetry. apply Z.div_unique with (r := b - v); [lia|]. pose proof (Z.div_mod v (usz t)). lia. }
      split; [lia|]. split.
      - unfold has_leaf. rewrite LB. exists l'. cbn [stats_add set_leaf sv_leaf]. rewrite !Z.eqb_refl. reflexivity.
      - rewrite MB. replace (b - (b - v)) with v by lia. lia. }
    specialize (TS P). destruct (cache_store t v (usz t) _ o) as [[s' o'] r] eqn:CS.
    unfold cache_store, bind, tick in CS. cbn [hd tl] in CS. destruct (spamap_add _ _ _ _); injection CS as <- <- <-; auto.
Qed.

Lemma tri_addref : forall v, 0 < refs LT_DATABK v -> tri I I (addref LT_DATABK v)
  (fun _ s => inv (at1 refs LT_DATABK v (refs LT_DATABK v + 1)) wr N s).
Proof.
  intros v Hr s o HI. destruct (ref_facts s LT_DATABK v HI Hr) as [Ht [Hv [Ha [Hs _]]]]. revert s o HI.
  change (tri I I (addref LT_DATABK v) (fun _ s => inv (at1 refs LT_DATABK v (refs LT_DATABK v + 1)) wr N s)).
  unfold addref. eapply tri_bind; [apply tri_live_maps; auto|]. intros ?. eapply tri_bind; [apply tri_may_fail; auto|]. intros ?.
  apply tri_with_leaf; [auto|]. intros s0 l HI Hl. pose proof (leaf_of s0 _ v l HI Ht Hl) as HL. apply tri_put. intros s ->.
  apply inv_upd0 with (refs := refs) (wr := wr) (l := l); auto.
  - intros t' v' Hn. split; auto. apply at1_other; auto.
  - rewrite at1_same. lia.
  - intros _. apply live_uncached; auto.
  - apply reref_inv; auto.
Qed.

Lemma tri_flag : forall t v w, 0 < refs t v -> ltype_isdata t = true ->
  tri I I (if w : bool then clear_unwritten t v else mark_unwritten t v) (fun _ s => inv refs (at1 wr t v w) N s).
Proof.
  intros t v w Hr Hd s o HI. destruct (ref_facts s t v HI Hr) as [Ht [Hv [Ha [Hs _]]]]. revert s o HI.
  change (tri I I (if w : bool then clear_unwritten t v else mark_unwritten t v) (fun _ s => inv refs (at1 wr t v w) N s)).
  assert (OT : forall t' v', (t', v') <> (t, v) -> refs t' v' = refs t' v' /\ at1 wr t v w t' v' = wr t' v').
  { intros t' v' Hn. split; auto. apply at1_other; auto. }
  assert (ST : forall s0 l, I s0 -> sv_leaf s0 t (leaf_index v) = Some l ->
     inv refs (at1 wr t v w) N (set_leaf s0 t (leaf_index v) (if w then clear_unwritten_at l t v else set_unwritten_at l t v))).
  { intros s0 l HI Hl. pose proof (leaf_of s0 t v l HI Ht Hl) as HL.
    apply inv_upd0 with (refs := refs) (wr := wr) (l := l); auto; [lia| |].
    - intros _. apply live_uncached; auto.
    - apply flag_inv; auto. }
  assert (SAME : forall s0, I s0 -> wr t v = w -> inv refs (at1 wr t v w) N s0).
  { intros s0 [I1 [I2 [I3 I4]]] Hw. split; [exact I1|]. split; [|split; [exact I3|exact I4]].
    intros t' i' l Ht' Hl. destruct (I2 t' i' l Ht' Hl) as [J [J1 J2]]. split; [auto|]. split; [|auto]. intros k Hk.
    apply slot_inv_ext with (refs := refs) (wr := wr); [|auto]. intros j Hj. split; auto. intros _.
    unfold at1. destruct ((t' =? t) && (addr t' i' k j =? v)) eqn:E; auto.
    assert (t' = t /\ addr t' i' k j = v) as [E1 E2] by lia. rewrite E2, E1. auto. }
  destruct w.
  - unfold clear_unwritten. eapply tri_bind; [apply tri_live_maps; auto|]. intros ?.
    apply tri_with_leaf; [auto|]. intros s0 l HI Hl. pose proof (leaf_of s0 t v l HI Ht Hl) as HL.
    rewrite (test_unwritten refs wr) by auto. destruct (wr t v) eqn:W; cbn [negb].
    + apply tri_ret. intros s ->. auto.
    + apply tri_put. intros s ->. auto.
  - unfold mark_unwritten. eapply tri_bind; [apply tri_live_maps; auto|]. intros ?.
    apply tri_with_leaf; [auto|]. intros s0 l HI Hl. pose proof (leaf_of s0 t v l HI Ht Hl) as HL.
    rewrite (test_unwritten refs wr) by auto. destruct (wr t v) eqn:W; cbn [negb].
    + apply tri_put. intros s ->. auto.
    + apply tri_ret. intros s ->. auto.
Qed.

(* ---- whole-state operations ---- *)
Lemma inv_leaf_view : forall s s', I s ->
  (forall t i, isv t -> match sv_leaf s t i with
     | Some l => exists l', sv_leaf s' t i = Some l' /\ (forall k, sl_bks l' k = sl_bks l k) /\ (sl_nused l' = sl_nused l)
     | None => sv_leaf s' t i = None end) ->
  (forall t, isv t -> objs s' t = objs s t) -> (forall t, isv t -> cache_ok refs s t -> cache_ok refs s' t) -> I s'.
Proof.
  intros s s' [I1 [I2 [I3 I4]]] V1 V3 V2.
  assert (HH : forall t v, isv t -> has_leaf t v s -> has_leaf t v s').
  { intros t v Ht [l Hl]. specialize (V1 t (leaf_index v) Ht). rewrite Hl in V1. destruct V1 as [l' [H _]]. exists l'. auto. }
  split; [|split; [|split]].
  - intros t v. destruct (I1 t v) as [A B]. split; [auto|]. intros H. destruct (B H) as [B1 [B2 [B3 [B5 B6]]]].
    split; [auto|]. split; [auto|]. split; [auto|]. split; auto.
  - intros t i l Ht Hl. specialize (V1 t i Ht). destruct (sv_leaf s t i) as [l0|] eqn:E0; [|congruence].
    destruct V1 as [l' [X1 [X2 X3]]]. assert (l' = l) by congruence. subst l'. destruct (I2 t i l0 Ht E0) as [B1 B2].
    split; [auto|]. apply leaf_inv_ext with (l := l0); auto.
  - intros t Ht. auto.
  - intros t Ht. rewrite V3 by auto. auto.
Qed.

Lemma leaf_same : forall s s', (forall t i, sv_leaf s' t i = sv_leaf s t i) -> forall t i, isv t -> match sv_leaf s t i with
     | Some l => exists l', sv_leaf s' t i = Some l' /\ (forall k, sl_bks l' k = sl_bks l k) /\ sl_nused l' = sl_nused l
     | None => sv_leaf s' t i = None end.
Proof. intros s s' H t i _. rewrite H. destruct (sv_leaf s t i) as [l|]; [exists l|]; auto. Qed.

Lemma inv_drop : forall s, I s -> I (drop_cache s).
Proof.
  intros s HI. apply inv_leaf_view with (s := s); auto; [apply leaf_same; reflexivity|].
  intros t Ht [C1 [[C2 _] [C3 [C4 C5]]]]. apply empty_cache with (m := spamap_clear (sv_cache s t)); auto.
Qed.
Lemma inv_new : forall s, I s -> I (new_cache s).
Proof.
  intros s HI. apply inv_leaf_view with (s := s); auto; [apply leaf_same; reflexivity|].
  intros t Ht _. apply empty_cache with (m := spamap_init t); auto. cbn. lia.
Qed.
Lemma nused_same : forall s t i l, I s -> isv t -> sv_leaf s t i = Some l -> sl_nused (update_nused l) = sl_nused l.
Proof. intros s t i l [_ [I2 _]] Ht Hl. destruct (I2 t i l Ht Hl) as [_ [_ L2]]. rewrite L2. reflexivity. Qed.
Lemma inv_reload_all : forall s, I s -> I (reload_leaves s).
Proof.
  intros s HI. apply inv_leaf_view with (s := s); auto.
  - intros t i Ht. cbn [reload_leaves sv_leaf]. destruct (sv_leaf s t i) as [l|] eqn:E; [|auto].
    eexists. split; [reflexivity|]. split; [reflexivity|]. apply (nused_same s t i); auto.
  - intros t Ht [C1 [C2 [C3 [C4 C5]]]]. split; [exact C1|]. split; [exact C2|]. split; [exact C3|]. split; [exact C4|].
    intros b Hb. destruct (C5 b Hb) as [D1 [[l D2] D3]]. split; [auto|]. split; [|auto].
    unfold has_leaf. cbn [reload_leaves sv_leaf]. rewrite D2. eauto.
Qed.
Lemma inv_reload : forall s t i, I s -> I (reload_leaf t i s).
Proof.
  intros s t i HI. unfold reload_leaf. destruct (sv_leaf s t i) as [l|] eqn:E; [|auto]. apply inv_leaf_view with (s := s); auto.
  - intros t' i' Ht'. cbn [set_leaf sv_leaf]. destruct ((t' =? t) && (i' =? i)) eqn:B.
    + assert (t' = t /\ i' = i) as [-> ->] by lia. rewrite E. eexists. split; [reflexivity|]. split; [reflexivity|].
      apply (nused_same s t i); auto.
    + destruct (sv_leaf s t' i') as [l'|]; [exists l'|]; auto.
  - intros t' Ht' [C1 [C2 [C3 [C4 C5]]]]. split; [exact C1|]. split; [exact C2|]. split; [exact C3|]. split; [exact C4|].
    intros b Hb. destruct (C5 b Hb) as [D1 [[l' D2] D3]]. split; [auto|]. split; [|auto].
    unfold has_leaf. cbn [set_leaf sv_leaf]. destruct (_ && _); eauto.
Qed.
Lemma inv_fork : forall s, I s -> I (fork s).
Proof.
  intros s HI. apply inv_leaf_view with (s := s); auto; [apply leaf_same; reflexivity|].
  intros t Ht. unfold fork. rewrite objs_add_other by (unfold isv, LT_INODE, LT_SUPER in *; lia). unfold objs. cbn. lia.
Qed.

(* scanning for free space after a mount: what is found goes to the cache, which holds nothing
   of that kind *)
Definition empty_of (t : Z) (s : space) : Prop := sp_lifo (sv_cache s t) = [] /\ sp_ents (sv_cache s t) = [].

Lemma inv_rescan : forall t s o, isv t -> I s -> empty_of t s ->
  let '(s', _, r) := rescan t s o in (r = Ub \/ I s') /\ (forall t', t' <> t -> empty_of t' s -> empty_of t' s').
Proof.
  intros t s o Ht HI HE. unfold rescan.
  set (K := fun st : space * list bool * Z => let '(s1, _, v) := st in I s1 /\ 0 <= v /\ empty_of t s1 /\ (forall t', t' <> t -> empty_of t' s -> empty_of t' s1)).
  set (Q := fun r : space * list bool * out Z => let '(s1, _, x) := r in
     I s1 /\ empty_of t s1 /\ (forall t', t' <> t -> empty_of t' s -> empty_of t' s1) /\
     match x with Ok w => freev refs t w s1 | _ => True end).
  assert (H : forall st, K st -> match rescan_body t st with inl st' => K st' | inr r => Q r end).
  { intros [[s1 o1] v] [H1 [H2 [H3 H4]]]. unfold rescan_body. destruct (v <? VSPACE_END); [|split; [auto|]; split; auto].
    unfold bind, may_fail, tick, with_leaf, get. cbn [bind hd tl]. unfold bind. destruct (hd true o1); cbn [ret stop]; [|split; [auto|]; split; auto].
    destruct (sv_leaf s1 t (leaf_index v)) as [l|] eqn:El; cbn [ret stop]; [|split; [auto|]; split; auto].
    set (s2 := set_cache s1 t _). assert (I2 : I s2) by (apply set_cache_hint; auto).
    assert (E2 : empty_of t s2) by (unfold s2, empty_of; cbn [set_cache sv_cache]; rewrite fset_same; exact H3).
    assert (E3 : forall t', t' <> t -> empty_of t' s -> empty_of t' s2).
    { intros t' Hn X. unfold s2, empty_of. cbn [set_cache sv_cache]. rewrite fset_other by auto. apply H4; auto. }
    pose proof (tri_find refs wr N t v Ht H2 s2 (tl o1) I2) as T.
    assert (P : find_free_at t v s2 (tl o1) = (s2, tl o1, snd (find_free_at t v s2 (tl o1)))).
    { unfold find_free_at, with_leaf, bind, get. destruct (sv_leaf s2 t (leaf_index v)); [|reflexivity].
      destruct (find_free_space _ _ _ _); [|reflexivity]. destruct (_ <=? _); reflexivity. }
    destruct (find_free_at t v s2 (tl o1)) as [[s3 o3] r3]. cbn [snd] in P. injection P as -> ->.
    pose proof (spleaf_next_ge v H2). destruct r3 as [w| | |]; cbn.
    - split; [apply T|]. split; [auto|]. split; [auto|apply T].
    - split; [auto|]. split; [lia|]. auto.
    - split; [auto|]. split; [lia|]. auto.
    - split; [auto|]. split; [lia|]. auto. }
  pose proof (ploop_inv _ _ K Q (rescan_body t) H SCAN_ROUNDS (s, o, 0)) as PL.
  assert (K0 : K (s, o, 0)) by (split; [auto|]; split; [lia|]; split; auto).
  specialize (PL K0). destruct (ploop SCAN_ROUNDS _ _) as [[[s1 o1] v1]|[[s1 o1] r]].
  - cbn in PL. destruct PL as [P1 [P2 [P3 P4]]]. split; auto.
  - destruct PL as [P1 [P2 [P3 P4]]]. destruct r as [w| | |]; [|split; auto; fail|split; auto|split; auto].
    destruct P4 as [F1 [F2 [F3 F4]]]. pose proof F4 as [l Hl]. rewrite Hl.
    pose proof (leaf_of s1 t w l P1 Ht Hl) as HL.
    destruct (0 <? dbkref_at l t w) eqn:D; [split; auto|].
    pose proof (usz_pos t Ht) as [Up _].
    assert (Um : usz t mod usz t = 0) by (apply Z.mod_same; lia).
    pose proof (tri_store refs wr N t w (usz t) Ht ltac:(lia) F2 Um s1 o1) as TS.
    assert (P : I s1 /\ (forall b, w <= b < w + usz t -> cnt (sv_cache s1 t) b = 0 /\ free_byte refs s1 t b)).
    { split; [auto|]. intros b Hb. split; [destruct P2; apply spa_empty_cnt; auto|].
      assert (MB : b mod usz t = b - w).
      { symmetry. apply Z.mod_unique with (q := w / usz t); [lia|]. pose proof (Z.div_mod w (usz t)). lia. }
      assert (LB : leaf_index b = leaf_index w).
      { pose proof (usz_pos t Ht) as [_ Um2].
        assert (D1 : Z.divide (usz t) LEAF_SPAN).
        { apply Z.mod_divide in Um2; [|lia]. unfold LEAF_SPAN, LBK_SIZE. apply Z.divide_mul_l. auto. }
        destruct D1 as [q Hq]. unfold leaf_index. rewrite Hq.
        assert (q > 0) by (unfold LEAF_SPAN, LBK_SIZE, NCHILDS in Hq; nia).
        rewrite (Z.mul_comm q). rewrite <- !Z.div_div by lia.
        assert (b / usz t = w / usz t) as ->; [|reflexivity].
        symmetry. apply Z.div_unique with (r := b - w); [lia|]. pose proof (Z.div_mod w (usz t)). lia. }
      split; [lia|]. split; [unfold has_leaf; rewrite LB; exact F4|]. rewrite MB. replace (b - (b - w)) with w by lia. auto. }
    specialize (TS P). change (usz t) with (ltype_size t) in TS.
    unfold cache_store, bind, tick in *. cbn [hd tl] in *.
    destruct (spamap_add (sv_cache s1 t) w (ltype_size t) (hd true o1)).
    + split; [auto|]. intros t' Hn X. unfold empty_of. cbn [set_cache sv_cache]. rewrite fset_other by auto. apply P3; auto.
    + split; [auto|]. intros t' Hn X. unfold empty_of. cbn [set_cache sv_cache]. rewrite fset_other by auto. apply P3; auto.
    + split; auto.
Qed.

Lemma inv_rescan_all : forall ts s o, NoDup ts -> Forall isv ts -> I s -> Forall (fun t => empty_of t s) ts ->
  let '(s', _, r) := rescan_all ts s o in r = Ub \/ I s'.
Proof.
  induction ts as [|t ts IH]; intros s o ND FV HI HE; cbn [rescan_all]; [auto|].
  apply NoDup_cons_iff in ND. destruct ND as [ND1 ND2]. apply Forall_cons_iff in FV. destruct FV as [F1 F2].
  apply Forall_cons_iff in HE. destruct HE as [E1 E2].
  pose proof (inv_rescan t s o F1 HI E1) as R. destruct (rescan t s o) as [[s1 o1] x]. destruct R as [R1 R2].
  assert (E3 : Forall (fun t => empty_of t s1) ts).
  { apply Forall_forall. intros t' Hi. apply R2; [intros ->; auto|]. rewrite Forall_forall in E2. auto. }
  destruct x; try (apply IH; auto; destruct R1 as [R1|R1]; [discriminate|auto]). auto.
Qed.
End OPS.
