(* The invariant of the whole space and that every operation keeps it. *)
From Verif Require Import Base AddrModel MapModel SpaModel SpaProofs SpaceModel SpaceBits SpaceLeaf.

Local Opaque sumn popcount.

(* leaves of the address space *)
Definition NLEAVES := VSPACE_END / LEAF_SPAN.

Section INV.
Variable refs : Z -> Z -> Z.
Variable wr : Z -> Z -> bool.
Variable N : Z -> Z.

Definition has_leaf (t v : Z) (s : space) : Prop := exists l, sv_leaf s t (leaf_index v) = Some l.
(* the bytes of a cached range are free, in a leaf that exists *)
Definition free_byte (s : space) (t b : Z) : Prop :=
  0 <= b /\ has_leaf t b s /\ refs t (b - b mod usz t) = 0.
Definition cache_ok (s : space) (t : Z) : Prop :=
  spa_inv (sv_cache s t) /\ mult_inv (usz t) (sv_cache s t) /\ al_inv (usz t) (sv_cache s t) /\
  0 <= sp_hint (sv_cache s t) /\ (forall b, 1 <= cnt (sv_cache s t) b -> free_byte s t b).
Definition ref_ok (s : space) (t v : Z) : Prop :=
  0 <= refs t v /\
  (0 < refs t v -> isv t /\ 0 <= v /\ v mod usz t = 0 /\
                   (1 < refs t v -> t = LT_DATABK) /\ has_leaf t v s).
Definition inv (s : space) : Prop :=
  (forall t v, ref_ok s t v) /\
  (forall t i l, isv t -> sv_leaf s t i = Some l -> 0 <= i < NLEAVES /\ leaf_inv refs wr t i l) /\
  (forall t, isv t -> cache_ok s t) /\
  (forall t, isv t -> objs s t = N t).
End INV.

(* ---- a small logic of steps ---- *)
Definition tri {A} (E P : space -> Prop) (m : M A) (Q : A -> space -> Prop) : Prop :=
  forall s o, P s -> let '(s', _, r) := m s o in
  match r with Ok a => Q a s' | Ub => True | _ => E s' end.

Lemma tri_bind : forall A B (E P : space -> Prop) (m : M A) (f : A -> M B) (Q : A -> space -> Prop) R,
  tri E P m Q -> (forall a, tri E (Q a) (f a) R) -> tri E P (bind m f) R.
Proof.
  intros A B E P m f Q R H1 H2 s o HP. unfold bind. specialize (H1 s o HP). destruct (m s o) as [[s1 o1] r].
  destruct r as [a| | |]; auto. apply H2. auto.
Qed.
Lemma tri_ret : forall A (E P : space -> Prop) (a : A) (Q : A -> space -> Prop), (forall s, P s -> Q a s) -> tri E P (ret a) Q.
Proof. intros A E P a Q H s o HP. cbn. auto. Qed.
Lemma tri_stop : forall A (E P : space -> Prop) (e : out A) (Q : A -> space -> Prop),
  (e = Nospc \/ e = Fail) -> (forall s, P s -> E s) -> tri E P (stop e) Q.
Proof. intros A E P e Q [->| ->] H s o HP; cbn; auto. Qed.
Lemma tri_get : forall A (E P : space -> Prop) (f : space -> M A) (Q : A -> space -> Prop),
  (forall s0, P s0 -> tri E (fun s => s = s0) (f s0) Q) -> tri E P (bind get f) Q.
Proof. intros A E P f Q H s o HP. unfold bind, get. apply (H s HP s o). reflexivity. Qed.
Lemma tri_put : forall (E P : space -> Prop) g (Q : unit -> space -> Prop), (forall s, P s -> Q tt (g s)) -> tri E P (put g) Q.
Proof. intros E P g Q H s o HP. cbn. auto. Qed.
Lemma tri_may_fail : forall (E P : space -> Prop), (forall s, P s -> E s) -> tri E P may_fail (fun _ => P).
Proof. intros E P H s o HP. unfold may_fail, bind, tick. cbn. destruct (hd true o); cbn; auto. Qed.
Lemma tri_pre : forall A (E P P' : space -> Prop) (m : M A) Q, (forall s, P s -> P' s) -> tri E P' m Q -> tri E P m Q.
Proof. intros A E P P' m Q H1 H2 s o HP. apply H2. auto. Qed.
Lemma tri_post : forall A (E P : space -> Prop) (m : M A) (Q Q' : A -> space -> Prop),
  tri E P m Q -> (forall a s, Q a s -> Q' a s) -> tri E P m Q'.
Proof.
  intros A E P m Q Q' H1 H2 s o HP. specialize (H1 s o HP). destruct (m s o) as [[s1 o1] r]. destruct r; auto.
Qed.
Lemma tri_err : forall A (E E' P : space -> Prop) (m : M A) (Q : A -> space -> Prop),
  tri E P m Q -> (forall s, E s -> E' s) -> tri E' P m Q.
Proof.
  intros A E E' P m Q H1 H2 s o HP. specialize (H1 s o HP). destruct (m s o) as [[s1 o1] r]. destruct r; auto.
Qed.
Lemma tri_with_leaf : forall A (E P : space -> Prop) t v (f : sleaf -> M A) Q, (forall s, P s -> E s) ->
  (forall s0 l, P s0 -> sv_leaf s0 t (leaf_index v) = Some l -> tri E (fun s => s = s0) (f l) Q) ->
  tri E P (with_leaf t v f) Q.
Proof.
  intros A E P t v f Q HE H. unfold with_leaf. apply tri_get. intros s0 HP.
  destruct (sv_leaf s0 t (leaf_index v)) as [l|] eqn:El; [apply H with (s0 := s0); auto|].
  apply tri_stop; [auto|]. intros s ->. auto.
Qed.

(* states that agree on what the invariant looks at *)
Definition same_view (s s' : space) : Prop :=
  (forall t i, isv t -> match sv_leaf s t i with
     | Some l => exists l', sv_leaf s' t i = Some l' /\ (forall k, sl_bks l' k = sl_bks l k) /\ sl_nused l' = sl_nused l
     | None => sv_leaf s' t i = None end) /\
  (forall t, isv t -> sv_cache s' t = sv_cache s t) /\
  (forall t, isv t -> objs s' t = objs s t).

Lemma has_leaf_view : forall s s' t v, same_view s s' -> isv t -> has_leaf t v s -> has_leaf t v s'.
Proof.
  intros s s' t v [H _] Ht [l Hl]. specialize (H t (leaf_index v) Ht). rewrite Hl in H. destruct H as [l' [H _]]. exists l'. auto.
Qed.
Lemma inv_view : forall refs wr N s s', same_view s s' -> inv refs wr N s -> inv refs wr N s'.
Proof.
  intros refs wr N s s' V [I1 [I2 [I3 I4]]]. pose proof V as [V1 [V2 V3]]. split; [|split; [|split]].
  - intros t v. destruct (I1 t v) as [A B]. split; [auto|]. intros H. destruct (B H) as [B1 [B2 [B3 [B5 B6]]]].
    split; [auto|]. split; [auto|]. split; [auto|]. split; [auto|]. apply has_leaf_view with (s := s); auto.
  - intros t i l Ht Hl. specialize (V1 t i Ht). destruct (sv_leaf s t i) as [l0|] eqn:E0; [|congruence].
    destruct V1 as [l' [X1 [X2 X3]]]. assert (l' = l) by congruence. subst l'. destruct (I2 t i l0 Ht E0) as [B1 B2].
    split; [auto|]. apply leaf_inv_ext with (l := l0); auto.
  - intros t Ht. specialize (I3 t Ht). unfold cache_ok in *. rewrite V2 by auto. destruct I3 as [C1 [C2 [C3 [C4 C5]]]].
    split; [auto|]. split; [auto|]. split; [auto|]. split; [auto|]. intros b Hb. destruct (C5 b Hb) as [D1 [D2 D3]].
    split; [auto|]. split; [|auto]. apply has_leaf_view with (s := s); auto.
  - intros t Ht. rewrite V3 by auto. auto.
Qed.

Lemma objs_add_other : forall s t t' a b, t' <> t -> objs (stats_add s t a b) t' = objs s t'.
Proof. intros. unfold objs, stats_add. cbn. rewrite fset_other by auto. reflexivity. Qed.
Lemma objs_add_same : forall s t a b, objs (stats_add s t a b) t = objs s t + a.
Proof. intros. unfold objs, stats_add. cbn. rewrite fset_same. lia. Qed.

Lemma view_spnode : forall s t h i v, same_view s (stats_add (set_node s t h i v) LT_SPNODE 1 1).
Proof.
  intros. split; [|split].
  - intros t' i' _. cbn. destruct (sv_leaf s t' i') as [l|]; [exists l|]; auto.
  - intros t' _. reflexivity.
  - intros t' Ht. rewrite objs_add_other; [reflexivity|]. unfold isv, LT_INODE, LT_SPNODE in *. lia.
Qed.
Lemma view_refl : forall s, same_view s s.
Proof.
  intros. split; [|split]; auto. intros t' i' _. destruct (sv_leaf s t' i') as [l|]; [exists l|]; auto.
Qed.
Lemma view_clone : forall s t i l v, sv_leaf s t i = Some l ->
  same_view s (stats_add (set_leaf s t i (mkSleaf v (sl_bks l) (sl_nused l))) LT_SPLEAF 1 1).
Proof.
  intros s t i l v H. split; [|split].
  - intros t' i' _. cbn. destruct (Z.eqb_spec t' t) as [->|]; [destruct (Z.eqb_spec i' i) as [->|]|]; cbn.
    + rewrite H. eexists. split; [reflexivity|]. split; reflexivity.
    + destruct (sv_leaf s t i') as [l'|]; [exists l'|]; auto.
    + destruct (sv_leaf s t' i') as [l'|]; [exists l'|]; auto.
  - intros t' _. reflexivity.
  - intros t' Ht. rewrite objs_add_other; [reflexivity|]. unfold isv, LT_INODE, LT_SPLEAF in *. lia.
Qed.

(* properties of states that depend on the view only *)
Definition viewp (P : space -> Prop) : Prop := forall s s', same_view s s' -> P s -> P s'.

Lemma tri_spnode : forall (E P : space -> Prop) t h v, viewp P -> (forall s, P s -> E s) ->
  tri E P (require_spnode t h v) (fun _ => P).
Proof.
  intros E P t h v HV HE. unfold require_spnode. eapply tri_bind; [apply tri_may_fail; exact HE|]. intros ?.
  apply tri_get. intros s0 HP. destruct (sv_node s0 t h (v / space_span h)) as [x|].
  - destruct (x =? sv_ver s0).
    + apply tri_ret. intros s ->. auto.
    + apply tri_put. intros s ->. apply (HV s0); auto. apply view_spnode.
  - apply tri_put. intros s ->. apply (HV s0); auto. apply view_spnode.
Qed.

(* on a leaf that is there *)
Lemma tri_spleaf_there : forall (E P : space -> Prop) t v, viewp P -> (forall s, P s -> E s) ->
  (forall s, P s -> has_leaf t v s) -> tri E P (require_spleaf t v) (fun _ => P).
Proof.
  intros E P t v HV HE HL. unfold require_spleaf. eapply tri_bind; [apply tri_may_fail; exact HE|]. intros ?.
  apply tri_get. intros s0 HP. destruct (HL s0 HP) as [l Hl]. rewrite Hl. destruct (_ =? _).
  - apply tri_ret. intros s ->. auto.
  - apply tri_put. intros s ->. apply (HV s0); auto. apply view_clone; auto.
Qed.
Lemma tri_spmaps_there : forall (E P : space -> Prop) t v, viewp P -> (forall s, P s -> E s) ->
  (forall s, P s -> has_leaf t v s) -> tri E P (require_spmaps t v) (fun _ => P).
Proof.
  intros E P t v HV HE HL. unfold require_spmaps.
  eapply tri_bind; [apply tri_spnode; auto|]. intros ?. eapply tri_bind; [apply tri_spnode; auto|]. intros ?.
  eapply tri_bind; [apply tri_spnode; auto|]. intros ?. eapply tri_bind; [apply tri_spnode; auto|]. intros ?.
  apply tri_spleaf_there; auto.
Qed.

Lemma cache_nn : forall m b, 0 <= cnt m b.
Proof. intros. unfold cnt. pose proof (ecnt_nn (sp_ents m) b). pose proof (lcnt_nn (sp_ulen m) (sp_lifo m) b). lia. Qed.

Lemma ploop_inv : forall (S R : Type) (K : S -> Prop) (Q : R -> Prop) (f : S -> S + R),
  (forall s, K s -> match f s with inl s' => K s' | inr r => Q r end) ->
  forall p s, K s -> match ploop p f s with inl s' => K s' | inr r => Q r end.
Proof.
  intros S R K Q f H. induction p; intros s Hs; cbn [ploop].
  - specialize (H s Hs). destruct (f s) as [s1|r]; auto. specialize (IHp s1 H) as H1. destruct (ploop p f s1) as [s2|r]; auto. apply (IHp s2 H1).
  - specialize (IHp s Hs) as H1. destruct (ploop p f s) as [s2|r]; auto. apply (IHp s2 H1).
  - apply H; auto.
Qed.
Lemma spleaf_next_ge : forall v, 0 <= v -> v < spleaf_next v /\ v / LEAF_SPAN + 1 = spleaf_next v / LEAF_SPAN.
Proof. intros v Hv. unfold spleaf_next, LEAF_SPAN, LBK_SIZE, NCHILDS. lia. Qed.

Section KEEP.
Variable refs : Z -> Z -> Z.
Variable wr : Z -> Z -> bool.
Variable N : Z -> Z.
Notation I := (inv refs wr N).

Lemma inv_viewp : viewp I. Proof. intros s s' V H. apply inv_view with (s := s); auto. Qed.

(* putting a new cache for t that holds no more than free bytes *)
Lemma inv_set_cache : forall s t m, I s -> isv t -> cache_ok refs (set_cache s t m) t -> I (set_cache s t m).
Proof.
  intros s t m [I1 [I2 [I3 I4]]] Ht Hc. split; [|split; [|split]].
  - intros t' v. exact (I1 t' v).
  - intros t' i l. exact (I2 t' i l).
  - intros t' Ht'. destruct (Z.eq_dec t' t) as [->|Hn]; [exact Hc|]. specialize (I3 t' Ht'). unfold cache_ok, free_byte, has_leaf in *.
    cbn [set_cache sv_cache sv_leaf] in *. rewrite fset_other by auto. exact I3.
  - intros t' Ht'. exact (I4 t' Ht').
Qed.

Lemma tri_store : forall t off len, isv t -> 0 < len -> off mod usz t = 0 -> len mod usz t = 0 ->
  tri I (fun s => I s /\ forall b, off <= b < off + len -> cnt (sv_cache s t) b = 0 /\ free_byte refs s t b)
    (cache_store t off len) (fun _ => I).
Proof.
  intros t off len Ht Hl Ho Hm. pose proof (usz_pos t Ht) as [Up _]. unfold cache_store. eapply tri_bind.
  { instantiate (1 := fun _ => (fun s => I s /\ forall b, off <= b < off + len -> cnt (sv_cache s t) b = 0 /\ free_byte refs s t b)).
    intros s o HP. cbn. exact HP. }
  intros a s o [HI HF]. pose proof HI as [I1 [I2 [I3 I4]]]. destruct (I3 t Ht) as [C1 [C2 [C3 [C4 C5]]]].
  pose proof (add_ok (sv_cache s t) off len a C1 Hl (fun b Hb => proj1 (HF b Hb))) as A.
  pose proof (add_mult (sv_cache s t) off len a (usz t) ltac:(lia) C2 Hm) as AM.
  pose proof (add_al (sv_cache s t) off len a (usz t) C3 Ho) as AA.
  assert (AH : match spamap_add (sv_cache s t) off len a with SOk m' | SErr m' => sp_hint m' = sp_hint (sv_cache s t) | SUb => True end).
  { unfold spamap_add. destruct (spalifo_add _ _ _) eqn:El.
    { unfold spalifo_add in El. destruct (_ && _); [|discriminate]. injection El as <-. reflexivity. }
    destruct (spamap_merge _ _ _ _) as [r|] eqn:Em.
    - unfold spamap_merge in Em. destruct (split_at _ _ _) as [b0 a0]. destruct b0 as [|p b0].
      + destruct a0 as [|n c]; [discriminate|]. destruct (_ =? _); [|discriminate]. destruct a; injection Em as <-; reflexivity.
      + destruct (_ =? _).
        * destruct a0 as [|n c]; [injection Em as <-; reflexivity|]. destruct (_ =? _); injection Em as <-; reflexivity.
        * destruct a0 as [|n c]; [discriminate|]. destruct (_ =? _); [|discriminate]. destruct a; injection Em as <-; reflexivity.
    - destruct (_ <? _); [|reflexivity]. unfold spamap_insert. destruct a; [reflexivity|].
      destruct (maximal_spe _); [|reflexivity]. destruct (_ <? _); auto. }
  destruct (spamap_add (sv_cache s t) off len a) as [m|m|]; [| |exact Logic.I].
  - destruct A as [B1 B2]. apply inv_set_cache; auto. unfold cache_ok. cbn [set_cache sv_cache]. rewrite fset_same.
    split; [auto|]. split; [auto|]. split; [auto|]. split; [rewrite AH; auto|].
    intros b Hb. rewrite B2 in Hb. destruct (in_rng off len b) eqn:R.
    + apply HF. unfold in_rng in R. lia.
    + apply C5. simpl in Hb. lia.
  - destruct A as [[B1 B2] _]. apply inv_set_cache; auto. unfold cache_ok. cbn [set_cache sv_cache]. rewrite fset_same.
    split; [auto|]. split; [auto|]. split; [auto|]. split; [rewrite AH; auto|].
    intros b Hb. apply C5. specialize (B2 b). lia.
Qed.

(* no cached byte lies in a leaf that is missing *)
Lemma tri_spleaf : forall t v, isv t -> 0 <= v < VSPACE_END -> tri I I (require_spleaf t v) (fun _ s => I s /\ has_leaf t v s).
Proof.
  intros t v Ht Hv. unfold require_spleaf. eapply tri_bind; [apply tri_may_fail; auto|]. intros ?.
  apply tri_get. intros s0 HI. destruct (sv_leaf s0 t (leaf_index v)) as [l|] eqn:El.
  - destruct (_ =? _).
    + apply tri_ret. intros s ->. split; [auto|exists l; auto].
    + apply tri_put. intros s ->. pose proof (view_clone s0 t (leaf_index v) l (sv_ver s0) El) as V.
      split; [apply inv_view with (s := s0); auto|]. apply has_leaf_view with (s := s0); auto. exists l; auto.
  - set (i := leaf_index v) in *.
    assert (Hi : 0 <= i < NLEAVES) by (unfold i, NLEAVES, VSPACE_END, leaf_index, LEAF_SPAN, LBK_SIZE, NCHILDS in *; lia).
    set (s1 := stats_add (set_leaf s0 t i (mkSleaf (sv_ver s0) (fun _ => bkr_zero) 0)) LT_SPLEAF 1 1).
    assert (HL : forall t' i', sv_leaf s1 t' i' = if (t' =? t) && (i' =? i) then Some (mkSleaf (sv_ver s0) (fun _ => bkr_zero) 0) else sv_leaf s0 t' i') by reflexivity.
    assert (HL' : forall t' w, has_leaf t' w s0 -> has_leaf t' w s1).
    { intros t' w [l Hl]. unfold has_leaf. rewrite HL. destruct (_ && _); [eexists; reflexivity|exists l; auto]. }
    pose proof HI as [I1 [I2 [I3 I4]]].
    assert (NR : forall w, leaf_index w = i -> refs t w = 0).
    { intros w Hw. destruct (I1 t w) as [A B]. destruct (Z.eq_dec (refs t w) 0); auto. destruct B as [_ [_ [_ [_ [l B]]]]]; [lia|].
      rewrite Hw in B. congruence. }
    assert (I' : I s1).
    { split; [|split; [|split]].
      - intros t' w. destruct (I1 t' w) as [A B]. split; [auto|]. intros H. destruct (B H) as [B1 [B2 [B3 [B5 B6]]]].
        split; [auto|]. split; [auto|]. split; [auto|]. split; auto.
      - intros t' i' l Ht' Hl. rewrite HL in Hl. destruct (Z.eqb_spec t' t) as [->|]; [destruct (Z.eqb_spec i' i) as [->|]|]; cbn [andb] in Hl; eauto.
        injection Hl as <-. split; [auto|]. split.
        + intros k Hk. cbn [sl_bks].
          assert (Z0 : forall j, 0 <= j < 64 -> refs t (addr t i k j) = 0).
          { intros j Hj. apply NR. apply addr_leaf; auto; lia. }
          split; [apply st64_0|]. split; [apply st64_0|]. split; [|split].
          * intros j Hj. rewrite Z0 by auto. cbn [bkr_zero bk_alloc]. rewrite Z.bits_0. reflexivity.
          * intros j Hj _ Hp. rewrite Z0 in Hp by auto. lia.
          * cbn [bkr_zero bk_dbk]. rewrite Z0 by lia. destruct (isdatabk t); reflexivity.
        + cbn [sl_nused]. unfold sum_nbytes_used. cbn [sl_bks bkr_zero bk_alloc]. rewrite popcount_0, sumn_const. reflexivity.
      - intros t' Ht'. destruct (I3 t' Ht') as [C1 [C2 [C3 [C4 C5]]]]. split; [exact C1|]. split; [exact C2|]. split; [exact C3|].
        split; [exact C4|]. intros b Hb. destruct (C5 b Hb) as [D1 [D2 D3]]. split; [auto|]. split; auto.
      - intros t' Ht'. unfold s1. rewrite objs_add_other by (unfold isv, LT_INODE, LT_SPLEAF in *; lia). exact (I4 t' Ht'). }
    assert (L1 : has_leaf t v s1).
    { unfold has_leaf. rewrite HL. fold i. rewrite !Z.eqb_refl. eexists. reflexivity. }
    eapply tri_bind. { apply tri_put. intros s ->. instantiate (1 := fun _ s => s = s1). reflexivity. }
    intros ?. cbv beta.
    (* the store keeps leaves *)
    intros s o ->. pose proof (tri_store t (i * LEAF_SPAN) LEAF_SPAN Ht ltac:(reflexivity)) as TS.
    pose proof (usz_pos t Ht) as [Up Um].
    assert (M1 : LEAF_SPAN mod usz t = 0).
    { unfold LEAF_SPAN, LBK_SIZE, NCHILDS. apply Z.mod_divide; [lia|]. apply Z.mod_divide in Um; [|lia]. apply Z.divide_mul_l. auto. }
    assert (M2 : i * LEAF_SPAN mod usz t = 0).
    { apply Z.mod_divide; [lia|]. apply Z.mod_divide in M1; [|lia]. apply Z.divide_mul_r. auto. }
    specialize (TS M2 M1 s1 o).
    assert (TS' : I s1 /\ (forall b, i * LEAF_SPAN <= b < i * LEAF_SPAN + LEAF_SPAN -> cnt (sv_cache s1 t) b = 0 /\ free_byte refs s1 t b)).
    { split; [auto|]. intros b Hb. assert (Lb : leaf_index b = i) by (unfold leaf_index, LEAF_SPAN, LBK_SIZE, NCHILDS in *; lia).
      assert (B0 : 0 <= b) by (unfold LEAF_SPAN, LBK_SIZE, NCHILDS in *; lia).
      split.
      - destruct (I3 t Ht) as [_ [_ [_ [_ C5]]]]. pose proof (cache_nn (sv_cache s1 t) b).
        destruct (Z.eq_dec (cnt (sv_cache s1 t) b) 0); auto. destruct (C5 b) as [_ [[l D] _]]; [change (sv_cache s1 t) with (sv_cache s0 t) in *; lia|].
        rewrite Lb in D. congruence.
      - split; [auto|]. split; [unfold has_leaf; rewrite Lb; exact L1|]. apply NR.
        assert (i * LEAF_SPAN <= b - b mod usz t).
        { apply Z.mod_divide in M2; [|lia]. destruct M2 as [q Hq]. rewrite Hq in *. 
          pose proof (Z.div_mod b (usz t) ltac:(lia)). pose proof (Z.mod_pos_bound b (usz t) ltac:(lia)).
          assert (q <= b / usz t) by (apply Z.div_le_lower_bound; lia). nia. }
        pose proof (Z.mod_pos_bound b (usz t) ltac:(lia)).
        unfold leaf_index, LEAF_SPAN, LBK_SIZE, NCHILDS in *. lia. }
    specialize (TS TS'). unfold cache_store, bind, tick in *. cbn [hd tl] in *.
    destruct (spamap_add (sv_cache s1 t) (i * LEAF_SPAN) LEAF_SPAN (hd true o)); auto.
Qed.

Lemma tri_spmaps : forall t v, isv t -> 0 <= v < VSPACE_END -> tri I I (require_spmaps t v) (fun _ s => I s /\ has_leaf t v s).
Proof.
  intros t v Ht Hv. unfold require_spmaps. pose proof inv_viewp as V.
  eapply tri_bind; [apply tri_spnode; auto|]. intros ?. eapply tri_bind; [apply tri_spnode; auto|]. intros ?.
  eapply tri_bind; [apply tri_spnode; auto|]. intros ?. eapply tri_bind; [apply tri_spnode; auto|]. intros ?.
  apply tri_spleaf; auto.
Qed.

(* ---- finding a place ---- *)
Definition freev (t v : Z) (s : space) : Prop := 0 <= v /\ v mod usz t = 0 /\ refs t v = 0 /\ has_leaf t v s.
Definition cand (t v : Z) (s : space) : Prop :=
  freev t v s /\ forall b, v <= b < v + usz t -> cnt (sv_cache s t) b = 0.

Lemma refs_nn : forall s, I s -> forall t v, 0 <= refs t v.
Proof. intros s [I1 _] t v. apply I1. Qed.

Lemma tri_find : forall t v, isv t -> 0 <= v -> tri I I (find_free_at t v) (fun w s => I s /\ freev t w s).
Proof.
  intros t v Ht Hv. unfold find_free_at. apply tri_with_leaf; [auto|]. intros s0 l HI Hl.
  destruct (find_free_space l (leaf_index v * LEAF_SPAN) v t) as [w|] eqn:F.
  - pose proof HI as [I1 [I2 _]]. destruct (I2 t _ l Ht Hl) as [Hi HLI].
    pose proof (find_free_space_spec refs wr l t (leaf_index v) v w Ht (proj1 Hi) Hv (refs_nn s0 HI t) HLI F) as [A [B [C D]]].
    destruct (_ <=? _).
    + apply tri_ret. intros s ->. split; [auto|]. split; [auto|]. split; [auto|]. split; [auto|]. exists l. rewrite B. auto.
    + apply tri_stop; auto. intros s ->. auto.
  - apply tri_stop; auto. intros s ->. auto.
Qed.

Lemma tri_require_at : forall t v, isv t -> 0 <= v < VSPACE_END -> tri I I (require_vspace_at t v) (fun w s => I s /\ freev t w s).
Proof.
  intros t v Ht Hv. unfold require_vspace_at. eapply tri_bind; [apply tri_may_fail; auto|]. intros ?.
  eapply tri_bind; [apply tri_spmaps; auto|]. intros ?. apply tri_pre with (P' := I); [tauto|]. apply tri_find; auto; lia.
Qed.

(* loops *)
Lemma tri_scan : forall t, isv t -> tri I I (require_by_spmaps t) (fun w s => I s /\ freev t w s).
Proof.
  intros t Ht s o HI. unfold require_by_spmaps.
  set (K := fun st : space * list bool * Z => let '(s, _, v) := st in I s /\ 0 <= v).
  set (Q := fun r : space * list bool * out Z => let '(s, _, x) := r in
            match x with Ok w => I s /\ freev t w s | Ub => True | _ => I s end).
  pose proof (ploop_inv _ _ K Q (scan_body t)) as PL.
  assert (H : forall st, K st -> match scan_body t st with inl st' => K st' | inr r => Q r end).
  { intros [[s1 o1] v] [H1 H2]. unfold scan_body. destruct (Z.ltb_spec v VSPACE_END) as [Hlt|]; [|exact H1].
    pose proof (tri_require_at t v Ht (conj H2 Hlt) s1 o1 H1) as T. destruct (require_vspace_at t v s1 o1) as [[s2 o2] r].
    destruct r; cbn; auto. split; auto. pose proof (spleaf_next_ge v H2). lia. }
  specialize (PL H SCAN_ROUNDS (s, o, sp_hint (sv_cache s t))).
  assert (K0 : K (s, o, sp_hint (sv_cache s t))).
  { split; auto. destruct HI as [_ [_ [I3 _]]]. destruct (I3 t Ht) as [_ [_ [_ [C4 _]]]]. auto. }
  specialize (PL K0). destruct (ploop SCAN_ROUNDS _ _) as [[[s1 o1] v1]|[[s1 o1] r]].
  - cbn in PL. tauto.
  - exact PL.
Qed.

(* the bound on the rounds is never what ends the loop *)
Lemma scan_ends : forall t s o v, isv t -> I s -> 0 <= v -> exists r, ploop SCAN_ROUNDS (scan_body t) (s, o, v) = inr r.
Proof.
  intros t s o v Ht HI Hv. destruct (ploop SCAN_ROUNDS (scan_body t) (s, o, v)) as [st|r] eqn:E; [exfalso|exists r; auto].
  (* each round that goes on was below the end and moved to the next leaf *)
  assert (G : forall p st st', 0 <= snd st -> ploop p (scan_body t) st = inl st' ->
            0 <= snd st' /\ snd st / LEAF_SPAN + Zpos p <= snd st' / LEAF_SPAN /\ snd st' <= VSPACE_END).
  { assert (B : forall st st', 0 <= snd st -> scan_body t st = inl st' ->
              snd st < VSPACE_END /\ snd st' = spleaf_next (snd st)).
    { intros [[s1 o1] w] st' Hw H. cbn [snd] in *. unfold scan_body in H. destruct (Z.ltb_spec w VSPACE_END); [|discriminate].
      destruct (require_vspace_at t w s1 o1) as [[s2 o2] x]. destruct x; try discriminate. injection H as <-. auto. }
    induction p; intros st0 st' H0 H; cbn [ploop] in H.
    - destruct (scan_body t st0) as [st1|] eqn:E1; [|discriminate]. destruct (ploop p _ st1) as [st2|] eqn:E2; [|discriminate].
      destruct (B _ _ H0 E1) as [B1 B2]. pose proof (spleaf_next_ge _ H0) as [N1 N2].
      assert (S1 : 0 <= snd st1) by lia. destruct (IHp _ _ S1 E2) as [X1 [X2 X3]]. destruct (IHp _ _ X1 H) as [Y1 [Y2 Y3]].
      split; [auto|]. split; [|auto]. rewrite Pos2Z.inj_xI. rewrite B2 in X2. rewrite <- N2 in X2. clear - X2 Y2. lia.
    - destruct (ploop p _ st0) as [st2|] eqn:E2; [|discriminate].
      destruct (IHp _ _ H0 E2) as [X1 [X2 X3]]. destruct (IHp _ _ X1 H) as [Y1 [Y2 Y3]].
      split; [auto|]. split; [|auto]. rewrite Pos2Z.inj_xO. lia.
    - destruct (B _ _ H0 H) as [B1 B2]. pose proof (spleaf_next_ge _ H0) as [N1 N2]. rewrite B2. split; [lia|]. split; [lia|].
      unfold spleaf_next, VSPACE_END, LEAF_SPAN, LBK_SIZE, NCHILDS in *. lia. }
  destruct (G SCAN_ROUNDS (s, o, v) st Hv E) as [G1 [G2 G3]]. cbn [snd] in G2. 
  assert (SR : Zpos SCAN_ROUNDS = 17179869185) by reflexivity. rewrite SR in G2.
  clear - G1 G2 G3 Hv. unfold VSPACE_END, LEAF_SPAN, LBK_SIZE, NCHILDS in *. change (2 ^ 58) with 288230376151711744 in *.
  (* at the last round the offset was already at the end *)
  assert (0 <= v / (65536 * 256)) by lia. lia.
Qed.

Lemma tri_pop : forall t, isv t ->
  tri I I (cache_pop t) (fun r s => I s /\ match r with
    | Some v => cand t v s
    | None => sp_lifo (sv_cache s t) = [] /\ sp_ents (sv_cache s t) = [] end).
Proof.
  intros t Ht s o HI. pose proof HI as [I1 [I2 [I3 I4]]]. destruct (I3 t Ht) as [C1 [C2 [C3 [C4 C5]]]].
  pose proof (usz_pos t Ht) as [Up _]. assert (Up' : 0 < usz t) by lia.
  assert (Um : usz t mod usz t = 0) by (apply Z.mod_same; lia). unfold cache_pop. change (ltype_size t) with (usz t).
  destruct (spamap_pop (sv_cache s t) (usz t)) as [[m v]|] eqn:Ep.
  - pose proof (pop_ok _ _ _ _ C1 Up' Ep) as [P1 P2].
    pose proof (pop_mult _ _ _ _ (usz t) Up' C2 Um Ep) as P3.
    pose proof (pop_al _ _ _ _ (usz t) Up' C3 Um Ep) as [P4 P5].
    assert (Hh : sp_hint m = sp_hint (sv_cache s t)).
    { unfold spamap_pop in Ep. destruct (spalifo_pop _ _) as [[m1 o1]|] eqn:El.
      - injection Ep as <- <-. unfold spalifo_pop in El. destruct (sp_lifo _); [discriminate|]. destruct (_ =? _); [|discriminate].
        injection El as <- <-. reflexivity.
      - destruct (sp_ents _); [discriminate|]. destruct (_ <? _); [discriminate|]. destruct (_ <? _); injection Ep as <- <-; reflexivity. }
    assert (Hfree : forall b, v <= b < v + usz t -> free_byte refs s t b).
    { intros b Hb. apply C5. apply (pop_held _ _ _ _ _ C1 Up' Ep Hb). }
    split.
    + apply inv_set_cache; auto. unfold cache_ok. cbn [set_cache sv_cache]. rewrite fset_same.
      split; [auto|]. split; [auto|]. split; [auto|]. split; [rewrite Hh; auto|].
      intros b Hb. apply C5. rewrite P2 in Hb. pose proof (b2z_01 (in_rng v (usz t) b)). lia.
    + destruct (Hfree v ltac:(lia)) as [F1 [F2 F3]]. rewrite P5, Z.sub_0_r in F3.
      split; [split; [auto|]; split; [auto|]; split; [auto|]; exact F2|].
      intros b Hb. cbn [set_cache sv_cache]. rewrite fset_same. rewrite P2.
      destruct C1 as [C1 _]. specialize (C1 b). assert (in_rng v (usz t) b = true) as -> by (unfold in_rng; lia). cbn [Z.b2z].
      pose proof (pop_held _ _ _ _ _ (proj1 (I3 t Ht)) Up' Ep Hb). lia.
  - split; auto. apply (pop_none_empty _ (usz t)); auto.
Qed.

Lemma tri_unalloc : forall t, isv t -> tri I I (require_unalloc t) (fun v s => I s /\ cand t v s).
Proof.
  intros t Ht. unfold require_unalloc. eapply tri_bind; [apply tri_pop; auto|]. intros [v|].
  - apply tri_ret. auto.
  - apply tri_pre with (P' := I); [tauto|]. eapply tri_bind; [apply tri_scan; auto|]. intros w.
    (* the second pop: keep that w is free *)
    intros s o [HI HF]. pose proof (tri_pop t Ht s o HI) as T.
    unfold bind. unfold cache_pop in *. change (ltype_size t) with (usz t) in *.
    destruct (spamap_pop (sv_cache s t) (usz t)) as [[m v]|]; cbn [ret].
    + exact T.
    + destruct T as [_ [E1 E2]]. split; [auto|]. split; [auto|]. intros b _. apply spa_empty_cnt; auto.
Qed.
End KEEP.
