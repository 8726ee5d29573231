(* What a leaf records about live objects, and how its operations change it. *)
From Verif Require Import Base AddrModel MapModel SpaModel SpaProofs SpaceModel SpaceBits.

Local Opaque sumn popcount.

Definition isv (t : Z) : Prop := LT_INODE <= t <= LT_DATABK.
Definition nkb (t : Z) : Z := ltype_nkbs t.
Definition usz (t : Z) : Z := ltype_size t.

Lemma vsize : forall t, isv t -> usz t = nkb t * 1024 /\
  ((nkb t = 1 \/ nkb t = 4 \/ nkb t = 8) /\ isdatabk t = false \/ nkb t = 64 /\ t = LT_DATABK /\ isdatabk t = true).
Proof.
  intros t H. unfold isv, LT_INODE, LT_DATABK in H. unfold usz, nkb.
  assert (C : t = 5 \/ t = 6 \/ t = 7 \/ t = 8 \/ t = 9 \/ t = 10 \/ t = 11 \/ t = 12) by lia.
  destruct C as [->|[->|[->|[->|[->|[->|[->| ->]]]]]]]; vm_compute; intuition congruence.
Qed.
Lemma usz_pos : forall t, isv t -> 1024 <= usz t <= 65536 /\ 65536 mod usz t = 0.
Proof.
  intros t H. destruct (vsize t H) as [E [[[N|[N|N]] _]|[N _]]]; rewrite E, N; split; try lia; reflexivity.
Qed.

(* the start of the object that bit j of block k of leaf i belongs to *)
Definition addr (t i k j : Z) : Z := i * LEAF_SPAN + k * LBK_SIZE + j / nkb t * nkb t * KB_SIZE.

Lemma voff_parts : forall t v, isv t -> 0 <= v -> v mod usz t = 0 ->
  v = leaf_index v * LEAF_SPAN + leaf_slot v * LBK_SIZE + kbn_of v * KB_SIZE /\
  0 <= leaf_index v /\ 0 <= leaf_slot v < 256 /\ 0 <= kbn_of v /\ kbn_of v + nkb t <= 64 /\ kbn_of v mod nkb t = 0.
Proof.
  intros t v Ht Hv Ha. unfold leaf_index, leaf_slot, kbn_of, off_to_lba, off_isnull, LEAF_SPAN, LBK_SIZE, NCHILDS, KB_SIZE, NKB.
  destruct (Z.ltb_spec v 0); [lia|]. rewrite Z.quot_div_nonneg by lia.
  destruct (vsize t Ht) as [E [[[N|[N|N]] _]|[N _]]]; rewrite E, N in *; repeat split; try lia.
Qed.

Lemma addr_bit : forall t v j, isv t -> 0 <= v -> v mod usz t = 0 -> 0 <= j < 64 ->
  (addr t (leaf_index v) (leaf_slot v) j = v <-> kbn_of v <= j < kbn_of v + nkb t).
Proof.
  intros t v j Ht Hv Ha Hj. destruct (voff_parts t v Ht Hv Ha) as [P [P1 [P2 [P3 [P4 P5]]]]].
  unfold addr. unfold KB_SIZE in *.
  set (i := leaf_index v) in *. set (k := leaf_slot v) in *. set (q := kbn_of v) in *. clearbody i k q.
  destruct (vsize t Ht) as [_ [[[N|[N|N]] _]|[N _]]]; rewrite N in *; split; intros; lia.
Qed.
Lemma addr_aligned : forall t i k j, isv t -> 0 <= j < 64 -> addr t i k j mod usz t = 0.
Proof.
  intros t i k j Ht Hj. unfold addr, LEAF_SPAN, LBK_SIZE, NCHILDS, KB_SIZE.
  destruct (vsize t Ht) as [E [[[N|[N|N]] _]|[N _]]]; rewrite E, N; lia.
Qed.
Lemma addr_leaf : forall t i k j, isv t -> 0 <= i -> 0 <= k < 256 -> 0 <= j < 64 ->
  0 <= addr t i k j /\ leaf_index (addr t i k j) = i /\ leaf_slot (addr t i k j) = k /\
  kbn_of (addr t i k j) = j / nkb t * nkb t.
Proof.
  intros t i k j Ht Hi Hk Hj. unfold leaf_index, leaf_slot, kbn_of, off_to_lba, off_isnull, addr, LEAF_SPAN, LBK_SIZE, NCHILDS, KB_SIZE, NKB.
  assert (0 <= j / nkb t * nkb t <= 63).
  { destruct (vsize t Ht) as [E [[[N|[N|N]] _]|[N _]]]; rewrite N; lia. }
  set (q := j / nkb t * nkb t) in *. clearbody q.
  destruct (Z.ltb_spec (i * (65536 * 256) + k * 65536 + q * 1024) 0); [lia|].
  rewrite Z.quot_div_nonneg by lia. repeat split; try lia.
Qed.

Section LEAF.
Variable refs : Z -> Z -> Z.
Variable wr : Z -> Z -> bool.

(* slot k of leaf i of kind t describes exactly the live objects in it *)
Definition slot_inv (t i k : Z) (b : bkref) : Prop :=
  st64 (bk_alloc b) /\ st64 (bk_unwr b) /\
  (forall j, 0 <= j < 64 -> Z.testbit (bk_alloc b) j = (0 <? refs t (addr t i k j))) /\
  (forall j, 0 <= j < 64 -> ltype_isdata t = true -> 0 < refs t (addr t i k j) ->
             Z.testbit (bk_unwr b) j = negb (wr t (addr t i k j))) /\
  bk_dbk b = (if isdatabk t then refs t (addr t i k 0) else 0).
Definition leaf_inv (t i : Z) (l : sleaf) : Prop :=
  (forall k, 0 <= k < 256 -> slot_inv t i k (sl_bks l k)) /\ sl_nused l = sum_nbytes_used l.
End LEAF.

(* change of the ledger at one object *)
Definition at1 {A} (f : Z -> Z -> A) (t v : Z) (x : A) : Z -> Z -> A :=
  fun t' v' => if (t' =? t) && (v' =? v) then x else f t' v'.
Lemma at1_same : forall A (f : Z -> Z -> A) t v x, at1 f t v x t v = x.
Proof. intros. unfold at1. rewrite !Z.eqb_refl. reflexivity. Qed.
Lemma at1_other : forall A (f : Z -> Z -> A) t v x t' v', (t', v') <> (t, v) -> at1 f t v x t' v' = f t' v'.
Proof. intros. unfold at1. destruct (Z.eqb_spec t' t); destruct (Z.eqb_spec v' v); simpl; auto. subst. congruence. Qed.

Lemma slot_inv_ext : forall refs wr refs' wr' t i k b,
  (forall j, 0 <= j < 64 -> refs' t (addr t i k j) = refs t (addr t i k j) /\
                            (0 < refs t (addr t i k j) -> wr' t (addr t i k j) = wr t (addr t i k j))) ->
  slot_inv refs wr t i k b -> slot_inv refs' wr' t i k b.
Proof.
  intros refs wr refs' wr' t i k b H [A [B [C [D E]]]]. split; [auto|]. split; [auto|]. split; [|split].
  - intros j Hj. destruct (H j Hj) as [-> _]. auto.
  - intros j Hj Hd Hr. destruct (H j Hj) as [Er Ew]. rewrite Er in Hr. rewrite Ew by auto. auto.
  - rewrite E. destruct (isdatabk t); auto. destruct (H 0 ltac:(lia)) as [-> _]. auto.
Qed.

Lemma leaf_inv_ext : forall refs wr t i l l', (forall k, sl_bks l' k = sl_bks l k) -> sl_nused l' = sl_nused l ->
  leaf_inv refs wr t i l -> leaf_inv refs wr t i l'.
Proof.
  intros refs wr t i l l' H Hn [L1 L2]. split; [intros k Hk; rewrite H; auto|].
  rewrite Hn, L2. unfold sum_nbytes_used. f_equal. apply sumn_ext. intros j Hj. rewrite H. reflexivity.
Qed.

Lemma bkr_set_same : forall l v b, leaf_bkr (leaf_set_bkr l v b) v = b.
Proof. intros. unfold leaf_bkr. cbn [leaf_set_bkr sl_bks]. rewrite Z.eqb_refl. reflexivity. Qed.
Lemma bkr_set_nused : forall l n v, leaf_bkr (leaf_set_nused l n) v = leaf_bkr l v.
Proof. reflexivity. Qed.

Lemma other_slot : forall t v k j, isv t -> 0 <= v -> v mod usz t = 0 -> 0 <= k < 256 -> k <> leaf_slot v -> 0 <= j < 64 ->
  addr t (leaf_index v) k j <> v.
Proof.
  intros t v k j Ht Hv Ha Hk Hn Hj E. destruct (voff_parts t v Ht Hv Ha) as [P [P1 _]].
  destruct (addr_leaf t (leaf_index v) k j Ht P1 Hk Hj) as [_ [_ [S _]]]. rewrite E in S. congruence.
Qed.

(* changing one slot of a leaf *)
Lemma leaf_change : forall refs wr refs' wr' t v l b n, isv t -> 0 <= v -> v mod usz t = 0 ->
  leaf_inv refs wr t (leaf_index v) l ->
  (forall t' v', (t', v') <> (t, v) -> refs' t' v' = refs t' v' /\ wr' t' v' = wr t' v') ->
  slot_inv refs' wr' t (leaf_index v) (leaf_slot v) b ->
  n = sl_nused l + (popcount (bk_alloc b) - popcount (bk_alloc (leaf_bkr l v))) * 1024 ->
  leaf_inv refs' wr' t (leaf_index v) (leaf_set_nused (leaf_set_bkr l v b) n).
Proof.
  intros refs wr refs' wr' t v l b n Ht Hv Ha [L1 L2] He Hb Hn. pose proof (voff_parts t v Ht Hv Ha) as [P [P1 [P2 _]]].
  split.
  - intros k Hk. cbn [leaf_set_nused leaf_set_bkr sl_bks]. destruct (Z.eqb_spec k (leaf_slot v)) as [->|Hn'].
    + exact Hb.
    + apply slot_inv_ext with (refs := refs) (wr := wr); [|auto]. intros j Hj.
      destruct (He t (addr t (leaf_index v) k j)) as [E1 E2]; auto.
      intros E. injection E as E. revert E. apply other_slot; auto.
  - cbn [leaf_set_nused sl_nused]. rewrite Hn, L2. unfold sum_nbytes_used. cbn [leaf_set_nused leaf_set_bkr sl_bks].
    set (f := fun s => popcount (bk_alloc (sl_bks l s))).
    set (g := fun s => popcount (bk_alloc (if s =? leaf_slot v then b else sl_bks l s))).
    assert (G : sumn 256 g = sumn 256 f + (popcount (bk_alloc b) - popcount (bk_alloc (leaf_bkr l v)))).
    { apply sumn_point with (k := leaf_slot v); [lia|].
      intros j Hj. unfold f, g. destruct (Z.eqb_spec j (leaf_slot v)) as [->|]; [unfold leaf_bkr|]; lia. }
    rewrite G. unfold KB_SIZE. ring.
Qed.

(* all bits of the object at v *)
Lemma obj_bits : forall refs wr t v b, isv t -> 0 <= v -> v mod usz t = 0 ->
  slot_inv refs wr t (leaf_index v) (leaf_slot v) b ->
  forall j, kbn_of v <= j < kbn_of v + nkb t -> Z.testbit (bk_alloc b) j = (0 <? refs t v).
Proof.
  intros refs wr t v b Ht Hv Ha [_ [_ [H _]]] j Hj. destruct (voff_parts t v Ht Hv Ha) as [P [P1 [P2 [P3 [P4 P5]]]]].
  rewrite H by lia. replace (addr t (leaf_index v) (leaf_slot v) j) with v; auto.
  symmetry. apply addr_bit; auto; lia.
Qed.

Lemma leaf_slot_inv : forall refs wr t v l, isv t -> 0 <= v -> v mod usz t = 0 ->
  leaf_inv refs wr t (leaf_index v) l -> slot_inv refs wr t (leaf_index v) (leaf_slot v) (leaf_bkr l v).
Proof. intros refs wr t v l Ht Hv Ha [L _]. apply L. destruct (voff_parts t v Ht Hv Ha) as [_ [_ [P _]]]. auto. Qed.

Lemma nkb_pos : forall t, isv t -> 1 <= nkb t <= 64.
Proof. intros t Ht. destruct (vsize t Ht) as [_ [[[N|[N|N]] _]|[N _]]]; rewrite N; lia. Qed.

Lemma addr_databk : forall v j, 0 <= v -> v mod 65536 = 0 -> 0 <= j < 64 -> addr LT_DATABK (leaf_index v) (leaf_slot v) j = v.
Proof.
  intros v j Hv Ha Hj. assert (T : isv LT_DATABK) by (unfold isv, LT_INODE, LT_DATABK; lia).
  apply addr_bit; auto. destruct (voff_parts LT_DATABK v T Hv Ha) as [_ [_ [_ [P3 [P4 P5]]]]].
  change (nkb LT_DATABK) with 64 in *. lia.
Qed.

(* ---- mark_allocated ---- *)
Lemma mark_inv : forall refs wr t v l, isv t -> 0 <= v -> v mod usz t = 0 -> refs t v = 0 ->
  leaf_inv refs wr t (leaf_index v) l ->
  leaf_inv (at1 refs t v 1) (at1 wr t v false) t (leaf_index v) (mark_allocated l t v).
Proof.
  intros refs wr t v l Ht Hv Ha Hr L. pose proof (voff_parts t v Ht Hv Ha) as [P [P1 [P2 [P3 [P4 P5]]]]].
  pose proof (nkb_pos t Ht) as Np. pose proof (leaf_slot_inv _ _ _ _ _ Ht Hv Ha L) as SI. set (b := leaf_bkr l v) in *.
  pose proof (obj_bits _ _ _ _ _ Ht Hv Ha SI) as OB. rewrite Hr in OB. simpl in OB.
  pose proof SI as [A [B [C [D E]]]].
  set (b' := mkBkr (set_mask (bk_alloc b) (bk_mask (kbn_of v) (ltype_nkbs t)))
                   (if ltype_isdata t then set_mask (bk_unwr b) (bk_mask (kbn_of v) (ltype_nkbs t)) else bk_unwr b)
                   (if isdatabk t then bk_dbk b + 1 else bk_dbk b)).
  assert (G : leaf_inv (at1 refs t v 1) (at1 wr t v false) t (leaf_index v)
                (leaf_set_nused (leaf_set_bkr l v b') (sl_nused l + ltype_size t))).
  { apply leaf_change with (refs := refs) (wr := wr); auto.
    - intros t' v' Hne. rewrite !at1_other by auto. auto.
    - change (ltype_nkbs t) with (nkb t) in b'. split; [|split; [|split; [|split]]].
      + apply st64_lor; auto. apply st64_mask; lia.
      + cbn [b' bk_unwr]. destruct (ltype_isdata t); auto. apply st64_lor; auto. apply st64_mask; lia.
      + intros j Hj. cbn [b' bk_alloc]. unfold set_mask. rewrite Z.lor_spec, mask_bits by lia.
        pose proof (addr_bit t v j Ht Hv Ha Hj) as AB.
        destruct (Z.leb_spec (kbn_of v) j); destruct (Z.ltb_spec j (kbn_of v + nkb t)); cbn [andb].
        * rewrite orb_true_r. assert (addr t (leaf_index v) (leaf_slot v) j = v) as -> by (apply AB; lia). rewrite at1_same. reflexivity.
        * rewrite orb_false_r, C by auto. rewrite at1_other; auto. intros X. injection X as X. apply AB in X. lia.
        * rewrite orb_false_r, C by auto. rewrite at1_other; auto. intros X. injection X as X. apply AB in X. lia.
        * rewrite orb_false_r, C by auto. rewrite at1_other; auto. intros X. injection X as X. apply AB in X. lia.
      + intros j Hj Hd Hp. cbn [b' bk_unwr]. rewrite Hd. unfold set_mask. rewrite Z.lor_spec, mask_bits by lia.
        pose proof (addr_bit t v j Ht Hv Ha Hj) as AB.
        destruct (Z.eq_dec (addr t (leaf_index v) (leaf_slot v) j) v) as [X|X].
        * rewrite X, at1_same. destruct (Z.leb_spec (kbn_of v) j); destruct (Z.ltb_spec j (kbn_of v + nkb t)); cbn [andb];
            try (apply AB in X; lia).
        * assert (Y : (t, addr t (leaf_index v) (leaf_slot v) j) <> (t, v)) by congruence.
          rewrite at1_other in * by auto.
          destruct (Z.leb_spec (kbn_of v) j); destruct (Z.ltb_spec j (kbn_of v + nkb t)); cbn [andb];
            try (exfalso; apply X; apply AB; lia); rewrite orb_false_r; apply D; auto.
      + cbn [b' bk_dbk]. rewrite E. destruct (isdatabk t) eqn:Dk; auto.
        unfold isdatabk in Dk. apply Z.eqb_eq in Dk. subst t. rewrite addr_databk by (auto; lia). rewrite Hr, at1_same. reflexivity.
    - cbn [b' bk_alloc]. change (ltype_nkbs t) with (nkb t). rewrite popcount_set by (auto; lia).
      change (ltype_size t) with (usz t). destruct (vsize t Ht) as [-> _]. fold b. lia. }
  revert G. apply leaf_inv_ext.
  - intros k. unfold mark_allocated. destruct (ltype_isdata t) eqn:Dt.
    + unfold set_unwritten_at, ref_allocated_at, leaf_bkr. cbn [leaf_set_bkr leaf_set_nused sl_bks]. rewrite Z.eqb_refl.
      cbn [bk_alloc bk_unwr bk_dbk]. destruct (k =? leaf_slot v); reflexivity.
    + unfold ref_allocated_at, leaf_bkr. cbn [leaf_set_bkr leaf_set_nused sl_bks]. destruct (k =? leaf_slot v); reflexivity.
  - unfold mark_allocated. destruct (ltype_isdata t); reflexivity.
Qed.

(* ---- ref_allocated_at: a further reference to a shared block ---- *)
Lemma reref_inv : forall refs wr v l, 0 <= v -> v mod 65536 = 0 -> 0 < refs LT_DATABK v ->
  leaf_inv refs wr LT_DATABK (leaf_index v) l ->
  leaf_inv (at1 refs LT_DATABK v (refs LT_DATABK v + 1)) wr LT_DATABK (leaf_index v) (ref_allocated_at l LT_DATABK v).
Proof.
  intros refs wr v l Hv Ha Hr L. set (t := LT_DATABK) in *. assert (Ht : isv t) by (unfold isv, t, LT_INODE, LT_DATABK; lia).
  change 65536 with (usz t) in Ha.
  pose proof (voff_parts t v Ht Hv Ha) as [P [P1 [P2 [P3 [P4 P5]]]]].
  pose proof (leaf_slot_inv _ _ _ _ _ Ht Hv Ha L) as SI. set (b := leaf_bkr l v) in *.
  pose proof (obj_bits _ _ _ _ _ Ht Hv Ha SI) as OB. 
  pose proof SI as [A [B [C [D E]]]]. change (nkb t) with 64 in *.
  assert (K0 : kbn_of v = 0) by lia. rewrite K0 in *.
  assert (AL : set_mask (bk_alloc b) (bk_mask 0 64) = bk_alloc b).
  { apply bits_eq; auto. { apply st64_lor; auto. apply st64_mask; lia. }
    intros j Hj. unfold set_mask. rewrite Z.lor_spec, OB by lia. destruct (Z.ltb_spec 0 (refs t v)); [reflexivity|lia]. }
  set (b' := mkBkr (bk_alloc b) (bk_unwr b) (bk_dbk b + 1)).
  assert (G : leaf_inv (at1 refs t v (refs t v + 1)) wr t (leaf_index v) (leaf_set_nused (leaf_set_bkr l v b') (sl_nused l))).
  { apply leaf_change with (refs := refs) (wr := wr); auto.
    - intros t' v' Hne. rewrite !at1_other by auto. auto.
    - assert (AD : forall j, 0 <= j < 64 -> addr t (leaf_index v) (leaf_slot v) j = v) by (intros; apply addr_databk; auto).
      split; [|split; [|split; [|split]]]; auto.
      + intros j Hj. cbn [b' bk_alloc]. rewrite C, AD, at1_same by auto.
        destruct (Z.ltb_spec 0 (refs t v)); destruct (Z.ltb_spec 0 (refs t v + 1)); auto; lia.
      + intros j Hj Hd Hp. cbn [b' bk_unwr]. apply D; auto. rewrite AD by auto. auto.
      + cbn [b' bk_dbk]. rewrite E. unfold isdatabk. cbn. rewrite AD, at1_same by lia. reflexivity.
    - cbn [b' bk_alloc]. fold b. lia. }
  unfold ref_allocated_at. fold b. rewrite K0. change (ltype_nkbs t) with 64. rewrite AL.
  change (isdatabk t) with true. fold b'. exact G.
Qed.

(* ---- unref_allocated ---- *)
Lemma unref_inv : forall refs wr t v l, isv t -> 0 <= v -> v mod usz t = 0 -> 0 < refs t v -> (1 < refs t v -> t = LT_DATABK) ->
  leaf_inv refs wr t (leaf_index v) l ->
  leaf_inv (at1 refs t v (refs t v - 1)) wr t (leaf_index v) (unref_allocated l t v) /\
  dbkref_at (unref_allocated l t v) t v = refs t v - 1.
Proof.
  intros refs wr t v l Ht Hv Ha Hr Hs L. pose proof (voff_parts t v Ht Hv Ha) as [P [P1 [P2 [P3 [P4 P5]]]]].
  pose proof (nkb_pos t Ht) as Np. pose proof (leaf_slot_inv _ _ _ _ _ Ht Hv Ha L) as SI. set (b := leaf_bkr l v) in *.
  pose proof (obj_bits _ _ _ _ _ Ht Hv Ha SI) as OB. destruct (Z.ltb_spec 0 (refs t v)) as [_|]; [|lia].
  pose proof SI as [A [B [C [D E]]]]. pose proof (vsize t Ht) as [Us Kind].
  destruct Kind as [[N Nd]|[N [Td Dd]]].
  - (* not a shared kind: the object goes away *)
    assert (R1 : refs t v = 1) by (destruct (Z.eq_dec (refs t v) 1); auto; unfold LT_DATABK in *; rewrite Hs in Nd by lia; discriminate).
    rewrite R1. change (1 - 1) with 0.
    set (a' := unset_mask (bk_alloc b) (bk_mask (kbn_of v) (nkb t))).
    assert (Sa : st64 a') by (apply st64_ldiff; auto).
    assert (Ba : forall j, 0 <= j < 64 -> Z.testbit a' j = (0 <? at1 refs t v 0 t (addr t (leaf_index v) (leaf_slot v) j))).
    { intros j Hj. unfold a', unset_mask. rewrite Z.ldiff_spec, mask_bits by lia. pose proof (addr_bit t v j Ht Hv Ha Hj) as AB.
      destruct (Z.eq_dec (addr t (leaf_index v) (leaf_slot v) j) v) as [X|X].
      - rewrite X, at1_same. apply AB in X. destruct (Z.leb_spec (kbn_of v) j); destruct (Z.ltb_spec j (kbn_of v + nkb t)); try lia; simpl; apply andb_false_r.
      - rewrite at1_other by congruence. rewrite C by auto.
        destruct (Z.leb_spec (kbn_of v) j); destruct (Z.ltb_spec j (kbn_of v + nkb t)); cbn [andb negb]; rewrite ?andb_true_r; auto.
        exfalso. apply X. apply AB. lia. }
    assert (Pc : popcount a' = popcount (bk_alloc b) - nkb t) by (apply popcount_unset; auto; lia).
    assert (U1 : unref_allocated_at l t v = leaf_set_bkr l v (mkBkr a' (bk_unwr b) (bk_dbk b))).
    { unfold unref_allocated_at. fold b. rewrite Nd. change (ltype_nkbs t) with (nkb t).
      destruct (Z.ltb_spec (nkb t) NKB) as [_|X]; [|unfold NKB in X; lia]. rewrite orb_true_r. reflexivity. }
    assert (NA : is_allocated_at (unref_allocated_at l t v) t v = false).
    { rewrite U1. unfold is_allocated_at. rewrite Nd. unfold leaf_bkr. cbn [leaf_set_bkr sl_bks]. rewrite Z.eqb_refl.
      unfold bkr_test_allocated_at. cbn [bk_alloc]. change (ltype_nkbs t) with (nkb t).
      destruct (has_mask a' (bk_mask (kbn_of v) (nkb t))) eqn:Hm; auto.
      rewrite has_mask_iff in Hm by (auto; lia). specialize (Hm (kbn_of v) ltac:(lia)). rewrite Ba in Hm by lia.
      assert (addr t (leaf_index v) (leaf_slot v) (kbn_of v) = v) as X by (apply addr_bit; auto; lia).
      rewrite X, at1_same in Hm. discriminate. }
    assert (G : forall w d, st64 w -> d = 0 ->
      ((forall j, 0 <= j < 64 -> 0 < at1 refs t v 0 t (addr t (leaf_index v) (leaf_slot v) j) -> Z.testbit w j = Z.testbit (bk_unwr b) j)) ->
      leaf_inv (at1 refs t v 0) wr t (leaf_index v) (leaf_set_nused (leaf_set_bkr l v (mkBkr a' w d)) (sl_nused l - ltype_size t))).
    { intros w d Hw Hd Hwb. apply leaf_change with (refs := refs) (wr := wr); auto.
      - intros t' v' Hne. rewrite at1_other by auto. auto.
      - split; [|split; [|split; [|split]]]; cbn [bk_alloc bk_unwr bk_dbk]; auto.
        + intros j Hj Hdt Hp. rewrite Hwb by auto. apply D; auto.
          destruct (Z.eq_dec (addr t (leaf_index v) (leaf_slot v) j) v) as [X|X]; [rewrite X; lia|]. rewrite at1_other in Hp by congruence. auto.
        + rewrite Nd. auto.
      - cbn [bk_alloc]. rewrite Pc. change (ltype_size t) with (usz t). fold b. lia. }
    unfold unref_allocated. rewrite NA. unfold dbkref_at. rewrite Nd. split; [|reflexivity].
    destruct (is_last_allocated l t v) eqn:La.
    + assert (A0 : a' = 0).
      { apply bits_eq; [auto|apply st64_0|]. intros j Hj. rewrite Z.bits_0.
        unfold is_last_allocated in La. rewrite Nd in La. apply negb_true_iff in La. unfold bkr_test_allocated_other in La.
        change (ltype_nkbs t) with (nkb t) in La. unfold a', unset_mask. rewrite Z.ldiff_spec, mask_bits by lia.
        destruct (Z.testbit (bk_alloc b) j) eqn:Tj; [|reflexivity].
        destruct ((kbn_of v <=? j) && (j <? kbn_of v + nkb t)) eqn:Hin; [reflexivity|]. exfalso.
        assert (X : has_mask_any (bk_alloc (leaf_bkr l v)) (bk_mask_other (kbn_of v) (nkb t)) = true).
        { apply other_iff; [exact A|lia|lia|lia|]. exists j. split; [lia|]. split; [lia|]. exact Tj. }
        congruence. }
      rewrite A0 in G. specialize (G 0 0 st64_0 eq_refl). rewrite U1.
      assert (G' : leaf_inv (at1 refs t v 0) wr t (leaf_index v) (leaf_set_nused (leaf_set_bkr l v bkr_zero) (sl_nused l - ltype_size t))).
      { apply G. intros j Hj Hp. rewrite A0 in Ba. specialize (Ba j Hj). rewrite Z.bits_0 in Ba.
        destruct (Z.ltb_spec 0 (at1 refs t v 0 t (addr t (leaf_index v) (leaf_slot v) j))); [discriminate|lia]. }
      revert G'. apply leaf_inv_ext; [|reflexivity].
      intros k. unfold renew_bk_at. cbn [leaf_set_bkr leaf_set_nused sl_bks]. destruct (k =? leaf_slot v); reflexivity.
    + rewrite U1. apply G; auto. rewrite E, Nd. auto.
  - (* a shared kind *)
    subst t. set (t := LT_DATABK) in *. change (usz t) with 65536 in *. rewrite N in *.
    assert (K0 : kbn_of v = 0) by lia. rewrite K0 in *.
    assert (AD : forall j, 0 <= j < 64 -> addr t (leaf_index v) (leaf_slot v) j = v) by (intros; apply addr_databk; auto).
    assert (Ed : bk_dbk b = refs t v) by (rewrite E, Dd, AD by lia; auto).
    assert (Pf : popcount (bk_alloc b) = 64).
    { rewrite popcount_def. rewrite (sumn_ext _ _ (fun _ => 1)); [rewrite sumn_const; reflexivity|]. intros j Hj. rewrite OB by lia. reflexivity. }
    assert (U1 : unref_allocated_at l t v = leaf_set_bkr l v
              (mkBkr (if refs t v - 1 =? 0 then unset_mask (bk_alloc b) (bk_mask 0 64) else bk_alloc b) (bk_unwr b) (refs t v - 1))).
    { unfold unref_allocated_at. fold b. rewrite Dd, Ed, K0. change (ltype_nkbs t) with 64. change (64 <? NKB) with false.
      rewrite orb_false_r. reflexivity. }
    assert (LA : is_last_allocated l t v = (refs t v =? 1)) by (unfold is_last_allocated; fold b; rewrite Dd, Ed; reflexivity).
    assert (AL : is_allocated_at (unref_allocated_at l t v) t v = (0 <? refs t v - 1)).
    { unfold is_allocated_at. rewrite Dd, U1, bkr_set_same. reflexivity. }
    unfold unref_allocated. rewrite LA, AL, U1. unfold dbkref_at. rewrite Dd.
    destruct (Z.eqb_spec (refs t v) 1) as [R1|R1].
    + rewrite R1. change (1 - 1) with 0. change (0 <? 0) with false. change (0 =? 0) with true. cbv iota.
      unfold renew_bk_at. rewrite bkr_set_same.
      split; [|reflexivity].
      assert (G : leaf_inv (at1 refs t v 0) wr t (leaf_index v) (leaf_set_nused (leaf_set_bkr l v bkr_zero) (sl_nused l - 65536))).
      { apply leaf_change with (refs := refs) (wr := wr); auto.
        - intros t' v' Hne. rewrite at1_other by auto. auto.
        - split; [apply st64_0|]. split; [apply st64_0|]. split; [|split].
          + intros j Hj. rewrite AD, at1_same by auto. cbn [bkr_zero bk_alloc]. apply Z.bits_0.
          + intros j Hj _ Hp. rewrite AD, at1_same in Hp by auto. lia.
          + cbn [bkr_zero bk_dbk]. rewrite Dd, AD, at1_same by lia. reflexivity.
        - fold b. rewrite Pf. cbn [bkr_zero bk_alloc]. rewrite popcount_0. lia. }
      change (ltype_size t) with 65536.
      revert G. apply leaf_inv_ext; [|reflexivity].
      intros k. cbn [leaf_set_bkr leaf_set_nused sl_bks]. destruct (k =? leaf_slot v); reflexivity.
    + destruct (Z.ltb_spec 0 (refs t v - 1)) as [_|]; [|lia]. destruct (Z.eqb_spec (refs t v - 1) 0); [lia|].
      rewrite bkr_set_same. split; [|reflexivity].
      assert (G : leaf_inv (at1 refs t v (refs t v - 1)) wr t (leaf_index v)
                    (leaf_set_nused (leaf_set_bkr l v (mkBkr (bk_alloc b) (bk_unwr b) (refs t v - 1))) (sl_nused l))).
      { apply leaf_change with (refs := refs) (wr := wr); auto.
        - intros t' v' Hne. rewrite at1_other by auto. auto.
        - split; [|split; [|split; [|split]]]; cbn [bk_alloc bk_unwr bk_dbk]; auto.
          + intros j Hj. rewrite AD, at1_same, OB by lia. destruct (Z.ltb_spec 0 (refs t v - 1)); auto; lia.
          + intros j Hj Hd Hp. apply D; auto. rewrite AD by auto. auto.
          + rewrite Dd, AD, at1_same by lia. reflexivity.
        - cbn [bk_alloc]. fold b. lia. }
      exact G.
Qed.

(* ---- unwritten flags ---- *)
Lemma flag_inv : forall refs wr t v l w, isv t -> 0 <= v -> v mod usz t = 0 -> 0 < refs t v ->
  leaf_inv refs wr t (leaf_index v) l ->
  leaf_inv refs (at1 wr t v w) t (leaf_index v) (if w then clear_unwritten_at l t v else set_unwritten_at l t v).
Proof.
  intros refs wr t v l w Ht Hv Ha Hr L. pose proof (voff_parts t v Ht Hv Ha) as [P [P1 [P2 [P3 [P4 P5]]]]].
  pose proof (nkb_pos t Ht) as Np. pose proof (leaf_slot_inv _ _ _ _ _ Ht Hv Ha L) as SI. set (b := leaf_bkr l v) in *.
  pose proof SI as [A [B [C [D E]]]].
  set (x := if w then unset_mask (bk_unwr b) (bk_mask (kbn_of v) (nkb t)) else set_mask (bk_unwr b) (bk_mask (kbn_of v) (nkb t))).
  assert (G : leaf_inv refs (at1 wr t v w) t (leaf_index v) (leaf_set_nused (leaf_set_bkr l v (mkBkr (bk_alloc b) x (bk_dbk b))) (sl_nused l))).
  { apply leaf_change with (refs := refs) (wr := wr); auto.
    - intros t' v' Hne. rewrite at1_other by auto. auto.
    - split; [|split; [|split; [|split]]]; cbn [bk_alloc bk_unwr bk_dbk]; auto.
      + unfold x. destruct w; [apply st64_ldiff; auto|apply st64_lor; auto; apply st64_mask; lia].
      + intros j Hj Hd Hp. pose proof (addr_bit t v j Ht Hv Ha Hj) as AB. unfold x.
        destruct (Z.eq_dec (addr t (leaf_index v) (leaf_slot v) j) v) as [X|X].
        * rewrite X, at1_same. apply AB in X. destruct w; unfold set_mask, unset_mask; rewrite ?Z.ldiff_spec, ?Z.lor_spec, mask_bits by lia;
          destruct (Z.leb_spec (kbn_of v) j); destruct (Z.ltb_spec j (kbn_of v + nkb t)); try lia; simpl; auto using andb_false_r, orb_true_r.
        * rewrite at1_other by congruence. rewrite <- D by auto.
          assert (Y : (kbn_of v <=? j) && (j <? kbn_of v + nkb t) = false).
          { destruct (Z.leb_spec (kbn_of v) j); destruct (Z.ltb_spec j (kbn_of v + nkb t)); auto. exfalso. apply X. apply AB. lia. }
          destruct w; unfold set_mask, unset_mask; rewrite ?Z.ldiff_spec, ?Z.lor_spec, mask_bits, Y by lia; simpl; auto using andb_true_r, orb_false_r.
    - cbn [bk_alloc]. fold b. lia. }
  destruct w; exact G.
Qed.

(* what the leaf answers about a live object *)
Lemma test_unwritten : forall refs wr t v l, isv t -> 0 <= v -> v mod usz t = 0 -> 0 < refs t v -> ltype_isdata t = true ->
  leaf_inv refs wr t (leaf_index v) l -> test_unwritten_at l t v = negb (wr t v).
Proof.
  intros refs wr t v l Ht Hv Ha Hr Hd L. pose proof (voff_parts t v Ht Hv Ha) as [P [P1 [P2 [P3 [P4 P5]]]]].
  pose proof (nkb_pos t Ht) as Np. pose proof (leaf_slot_inv _ _ _ _ _ Ht Hv Ha L) as [A [B [C [D E]]]].
  assert (T : forall j, kbn_of v <= j < kbn_of v + nkb t -> Z.testbit (bk_unwr (leaf_bkr l v)) j = negb (wr t v)).
  { intros j Hj. assert (X : addr t (leaf_index v) (leaf_slot v) j = v) by (apply addr_bit; auto; lia).
    rewrite D by (auto; try lia; rewrite X; auto). rewrite X. auto. }
  unfold test_unwritten_at. change (ltype_nkbs t) with (nkb t). destruct (negb (wr t v)).
  - apply has_mask_iff; auto; lia.
  - destruct (has_mask _ _) eqn:Hm; auto. rewrite has_mask_iff in Hm by (auto; lia).
    specialize (Hm (kbn_of v) ltac:(lia)). rewrite T in Hm by lia. discriminate.
Qed.
Lemma test_allocated : forall refs wr t v l, isv t -> 0 <= v -> v mod usz t = 0 ->
  leaf_inv refs wr t (leaf_index v) l -> is_allocated_at l t v = (0 <? refs t v).
Proof.
  intros refs wr t v l Ht Hv Ha L. pose proof (voff_parts t v Ht Hv Ha) as [P [P1 [P2 [P3 [P4 P5]]]]].
  pose proof (nkb_pos t Ht) as Np. pose proof (leaf_slot_inv _ _ _ _ _ Ht Hv Ha L) as SI. pose proof SI as [A [B [C [D E]]]].
  unfold is_allocated_at. destruct (isdatabk t) eqn:Dd.
  - rewrite E. unfold isdatabk in Dd. apply Z.eqb_eq in Dd. subst t. rewrite addr_databk by (auto; lia). reflexivity.
  - pose proof (obj_bits _ _ _ _ _ Ht Hv Ha SI) as OB. unfold bkr_test_allocated_at. change (ltype_nkbs t) with (nkb t).
    destruct (0 <? refs t v).
    + apply has_mask_iff; auto; lia.
    + destruct (has_mask _ _) eqn:Hm; auto. rewrite has_mask_iff in Hm by (auto; lia).
      specialize (Hm (kbn_of v) ltac:(lia)). rewrite OB in Hm by lia. discriminate.
Qed.

(* ---- search ---- *)
Lemma find_kbn_spec : forall f st n k r, find_kbn f st n k = Some r ->
  exists m, 0 <= m /\ r = k + m * n /\ r + n <= 64 /\ has_mask_none st (bk_mask r n) = true.
Proof.
  induction f; intros st n k r H; cbn [find_kbn] in H; [discriminate|].
  destruct (Z.leb_spec (k + n) NKB) as [L|]; [|discriminate]. unfold NKB in L.
  destruct (has_mask_none st (bk_mask k n)) eqn:Hm.
  - injection H as <-. exists 0. split; [lia|]. split; [lia|]. auto.
  - apply IHf in H. destruct H as [m [M1 [M2 [M3 M4]]]]. exists (m + 1). split; [lia|]. split; [lia|]. auto.
Qed.
Lemma find_bn_spec : forall n l t bn b k, find_bn n l t bn = Some (b, k) ->
  bn <= b < bn + Z.of_nat n /\ bkr_find_free (sl_bks l b) (nkb t) = Some k.
Proof.
  induction n; intros l t bn b k H; cbn [find_bn] in H; [discriminate|].
  destruct (bkr_may_alloc (sl_bks l bn) (ltype_nkbs t)).
  - destruct (bkr_find_free (sl_bks l bn) (ltype_nkbs t)) eqn:F.
    + injection H as <- <-. split; [lia|auto].
    + apply IHn in H. destruct H. split; [lia|auto].
  - apply IHn in H. destruct H. split; [lia|auto].
Qed.
Lemma bkr_find_spec : forall b n r, bkr_find_free b n = Some r ->
  exists m, 0 <= m /\ r = 0 + m * n /\ r + n <= 64 /\ has_mask_none (bk_alloc b) (bk_mask r n) = true.
Proof. intros b n r H. exact (find_kbn_spec 64 (bk_alloc b) n 0 r H). Qed.
Lemma find_free_space_spec : forall refs wr l t i from v, isv t -> 0 <= i -> 0 <= from -> (forall v, 0 <= refs t v) ->
  leaf_inv refs wr t i l -> find_free_space l (i * LEAF_SPAN) from t = Some v ->
  0 <= v /\ leaf_index v = i /\ v mod usz t = 0 /\ refs t v = 0.
Proof.
  intros refs wr l t i from v Ht Hi Hf Rn L H. unfold find_free_space in H. destruct (_ <=? _); [|discriminate].
  destruct (Z.leb_spec (i * LEAF_SPAN + LEAF_SPAN) (Z.max from (i * LEAF_SPAN))) as [|B]; [discriminate|].
  set (bn := (Z.max from (i * LEAF_SPAN) - i * LEAF_SPAN) / LBK_SIZE) in H.
  assert (Hbn : 0 <= bn < 256) by (unfold bn, LEAF_SPAN, LBK_SIZE, NCHILDS in *; lia).
  destruct (find_bn _ l t bn) as [[b k]|] eqn:F; [|discriminate]. injection H as H.
  apply find_bn_spec in F. destruct F as [Hb F]. apply bkr_find_spec in F.
  destruct F as [m [M1 [M2 [M3 M4]]]]. unfold NCHILDS in Hb. assert (Hb' : 0 <= b < 256) by lia.
  pose proof (nkb_pos t Ht) as Np.
  destruct L as [L _]. destruct (L b Hb') as [A [_ [C _]]].
  assert (K : 0 <= k) by nia.
  assert (Z0 : Z.testbit (bk_alloc (sl_bks l b)) k = false).
  { apply has_none_bits with (a := k) (k := nkb t); auto; lia. }
  rewrite C in Z0 by lia.
  assert (Ea : addr t i b k = v).
  { rewrite <- H. unfold addr, voff_by_spleaf, LEAF_SPAN, LBK_SIZE, NCHILDS, KB_SIZE.
    rewrite M2, Z.add_0_l, Z.div_mul by lia.
    replace (i * (65536 * 256) / 65536) with (i * 256) by lia. ring. }
  rewrite Ea in Z0. destruct (Z.ltb_spec 0 (refs t v)); [discriminate|]. pose proof (Rn v).
  destruct (addr_leaf t i b k Ht Hi Hb' ltac:(lia)) as [X1 [X2 [X3 X4]]]. rewrite Ea in *.
  split; [auto|]. split; [auto|]. split; [|lia]. rewrite <- Ea. apply addr_aligned; auto; lia.
Qed.

(* the counter, in terms of objects *)
Lemma sum_objects : forall refs wr t i l, isv t -> 0 <= i -> leaf_inv refs wr t i l ->
  sl_nused l = usz t * sumn (Z.to_nat (LEAF_SPAN / usz t)) (fun n => Z.b2z (0 <? refs t (i * LEAF_SPAN + n * usz t))).
Proof.
  intros refs wr t i l Ht Hi [L1 L2]. rewrite L2. unfold sum_nbytes_used.
  destruct (vsize t Ht) as [Us Kind].
  assert (exists q, 0 <= q /\ q * nkb t = 64 /\ LEAF_SPAN / usz t = 256 * q) as [q' [Q0 [Q1' Q2']]].
  { rewrite Us. unfold LEAF_SPAN, LBK_SIZE, NCHILDS. destruct Kind as [[[N|[N|N]] _]|[N _]]; rewrite N.
    - exists 64. lia.
    - exists 16. lia.
    - exists 8. lia.
    - exists 1. lia. }
  pose proof (nkb_pos t Ht) as Np0. set (q := Z.to_nat q').
  assert (Q1 : (q * Z.to_nat (nkb t) = 64)%nat) by (unfold q; rewrite <- Z2Nat.inj_mul by lia; rewrite Q1'; reflexivity).
  assert (Q2 : Z.to_nat (LEAF_SPAN / usz t) = (256 * q)%nat) by (rewrite Q2', Z2Nat.inj_mul by lia; reflexivity).
  clearbody q.
  rewrite Q2, sumn_split. pose proof (nkb_pos t Ht) as Np.
  assert (QN : Z.of_nat q * nkb t = 64) by nia.
  rewrite (sumn_ext 256 _ (fun k => nkb t * sumn q (fun n => Z.b2z (0 <? refs t (i * LEAF_SPAN + (k * Z.of_nat q + n) * usz t))))).
  - rewrite sumn_scale. rewrite Us at 1. unfold KB_SIZE. ring.
  - intros k Hk. change (Z.of_nat 256) with 256 in Hk. destruct (L1 k Hk) as [_ [_ [C _]]].
    rewrite popcount_def. rewrite (sumn_ext 64 _ (fun j => Z.b2z (0 <? refs t (addr t i k j)))) by (intros j Hj; change (Z.of_nat 64) with 64 in Hj; rewrite C by auto; reflexivity).
    rewrite <- Q1 at 1. rewrite sumn_split. rewrite <- sumn_scale. apply sumn_ext. intros n Hn.
    rewrite (sumn_ext _ _ (fun _ => Z.b2z (0 <? refs t (i * LEAF_SPAN + (k * Z.of_nat q + n) * usz t)))).
    + rewrite sumn_const. rewrite Z2Nat.id by lia. reflexivity.
    + intros r Hr. rewrite Z2Nat.id in * by lia. f_equal. f_equal. f_equal.
      unfold addr. rewrite Z.div_add_l by lia. rewrite (Z.div_small r) by lia. rewrite Us. unfold LBK_SIZE, KB_SIZE. nia.
Qed.
