(* Allocations of the pool of QallocModel.v: where they are, and that they stay as they are. *)
From Coq Require Import ZArith List Lia Bool Permutation.
From Verif Require Import Base QallocModel QallocProofs.
Import ListNotations.
Open Scope Z_scope.
Ltac dlia := Z.div_mod_to_equations; lia.

(* an allocation as its owner knows it: a name, where it is, its size, and the bytes of known value *)
Record ent := mkEnt { e_id : Z; e_ptr : Z; e_sz : Z; e_val : Z -> option Z }.
Definition cls (e : ent) : Z := sindex_of (e_sz e).
Definition cnt (p : Z) (L : list ent) : Z := zlen (filter (fun e => e_ptr e / PG =? p) L).
Definition cntc (i : Z) (L : list ent) : Z := zlen (filter (fun e => is_slab (e_sz e) && (cls e =? i)) L).
Definition multi (U : list chunk) : Z := zsum (map (fun x => match snd x with KMulti => snd (fst x) | _ => 0 end) U).

(* ---- sizes ---- *)
Lemma slab_range : forall n, is_slab n = true -> 0 < n <= SLAB_MAX.
Proof. intros n H. unfold is_slab in H. apply andb_prop in H as [H1 H2]. apply Z.ltb_lt in H1. apply Z.leb_le in H2. lia. Qed.
Lemma elem_facts : forall i, 0 <= i < NSLABS ->
  elemsz i * (PG / elemsz i) = PG /\ 16 <= elemsz i /\ elemsz i mod 16 = 0 /\ step_nsegs i * SEG = elemsz i /\
  PG / SEG / step_nsegs i = PG / elemsz i /\ 2 <= PG / elemsz i /\ elemsz i = 16 * 2 ^ i.
Proof.
  intros i Hi. unfold NSLABS in Hi.
  assert (H : i = 0 \/ i = 1 \/ i = 2 \/ i = 3 \/ i = 4 \/ i = 5 \/ i = 6 \/ i = 7 \/ i = 8 \/ i = 9 \/ i = 10 \/ i = 11) by lia.
  repeat (destruct H as [->|H]; [vm_compute; repeat split; discriminate || reflexivity|]).
  subst i. vm_compute. repeat split; discriminate || reflexivity.
Qed.
Lemma sindex_facts : forall n, is_slab n = true -> 0 <= sindex_of n < NSLABS /\ n <= elemsz (sindex_of n).
Proof.
  intros n H. pose proof (slab_range n H) as R. unfold SLAB_MAX in R. unfold sindex_of. rewrite H. cbn [negb].
  rewrite Z.shiftr_div_pow2 by lia. change (2 ^ 4) with 16. set (x := (n - 1) / 16).
  assert (Hx : 0 <= x < 2048) by (unfold x; dlia).
  assert (B : 0 <= bits x <= 11 /\ x < 2 ^ bits x).
  { unfold bits. destruct (x =? 0) eqn:E; [apply Z.eqb_eq in E; rewrite E; cbn; lia|]. apply Z.eqb_neq in E.
    pose proof (Z.log2_spec x) as S. destruct S as [S1 S2]; [lia|]. pose proof (Z.log2_nonneg x).
    assert (Z.log2 x < 11) by (apply Z.log2_lt_pow2; [lia | cbn; lia]). split; [lia|]. replace (Z.log2 x + 1) with (Z.succ (Z.log2 x)) by lia. exact S2. }
  destruct B as [B1 B2]. unfold clz32. unfold NSLABS.
  replace (32 - bits x =? 0) with false by lia. replace (32 <? 32 - bits x) with false by lia.
  cbn [orb]. replace (32 - (32 - bits x)) with (bits x) by lia. replace (12 <=? bits x) with false by lia.
  split; [lia|]. destruct (elem_facts (bits x)) as (_ & _ & _ & _ & _ & _ & ->); [unfold NSLABS; lia|].
  unfold x in *. set (y := 2 ^ bits ((n - 1) / 16)) in *. dlia.
Qed.
Lemma npgs_facts : forall n, is_slab n = false -> 0 < n -> 0 < npgs_of n /\ n <= npgs_of n * PG /\ (npgs_of n - 1) * PG < n.
Proof. intros n H H0. unfold npgs_of, PG. dlia. Qed.
Lemma in_segs : forall i p x, 0 <= i < NSLABS -> (In x (page_segs i p) <-> x / PG = p /\ x mod elemsz i = 0).
Proof.
  intros i p x Hi. destruct (elem_facts i Hi) as (D & E16 & _ & St & Sn & d2 & _).
  unfold page_segs. rewrite in_map_iff. rewrite Sn. assert (P0 : 0 < PG) by reflexivity.
  revert P0 D E16 St d2. generalize PG. intros G P0 D E16 St d2.
  set (w := elemsz i) in *. set (d := G / w) in *. clearbody d. split.
  - intros (k & <- & Hk). apply in_seq in Hk. rewrite <- Z.mul_assoc, St.
    assert (Hz : 0 <= Z.of_nat k <= d - 1) by lia.
    assert (Hw : Z.of_nat k * w <= (d - 1) * w) by (apply Z.mul_le_mono_nonneg_r; lia).
    assert (0 <= Z.of_nat k * w) by (apply Z.mul_nonneg_nonneg; lia).
    assert (Z.of_nat k * w < G) by (rewrite <- D; lia).
    split; [rewrite Z.div_add_l by lia; rewrite Z.div_small by lia; lia|].
    rewrite <- D. replace (p * (w * d) + Z.of_nat k * w) with ((p * d + Z.of_nat k) * w) by ring. apply Z.mod_mul. lia.
  - intros [Hp Hm]. apply Z.div_exact in Hm; [|lia].
    assert (Hx : p * G <= x < p * G + G).
    { subst p. pose proof (Z.mul_div_le x G P0). pose proof (Z.mul_succ_div_gt x G P0). lia. }
    set (m := x / w) in *. clearbody m.
    exists (Z.to_nat (m - p * d)).
    assert (Hk : p * d <= m < p * d + d).
    { rewrite <- D in Hx. rewrite Hm in Hx. split.
      - apply (Z.mul_le_mono_pos_l _ _ w); lia.
      - apply (Z.mul_lt_mono_pos_l w); lia. }
    rewrite Z2Nat.id by lia. split; [rewrite <- Z.mul_assoc, St, <- D; rewrite Hm; ring|].
    apply in_seq. lia.
Qed.
(* an element does not cross the end of its page *)
Lemma elem_fits : forall i x n, 0 <= i < NSLABS -> x mod elemsz i = 0 -> n <= elemsz i -> x + n <= (x / PG + 1) * PG.
Proof.
  intros i x n Hi Hm Hn. destruct (elem_facts i Hi) as (D & E16 & _ & _ & _ & d2 & _).
  assert (P0 : 0 < PG) by reflexivity. revert P0 D d2. generalize PG. intros G P0 D d2.
  set (w := elemsz i) in *. set (d := G / w) in *. clearbody d.
  apply Z.div_exact in Hm; [|lia]. set (m := x / w) in *. clearbody m.
  pose proof (Z.mul_succ_div_gt x G P0) as Hx. set (p := x / G) in *. clearbody p.
  assert (Hk : m < Z.succ p * d) by (apply (Z.mul_lt_mono_pos_l w); [lia|]; rewrite <- Hm; rewrite <- D in Hx; lia).
  assert (Hl : w * (m + 1) <= w * (Z.succ p * d)) by (apply Z.mul_le_mono_nonneg_l; lia). rewrite <- D. lia.
Qed.
Lemma segs_nodup : forall i p, 0 <= i < NSLABS -> NoDup (page_segs i p).
Proof.
  intros i p Hi. destruct (elem_facts i Hi) as (_ & E16 & _ & St & _ & _ & _). unfold page_segs.
  apply FinFun.Injective_map_NoDup; [|apply seq_NoDup].
  intros a b E. rewrite <- !Z.mul_assoc, !St in E. nia.
Qed.
Lemma segs_len : forall i p, 0 <= i < NSLABS -> zlen (page_segs i p) = PG / elemsz i.
Proof.
  intros i p Hi. destruct (elem_facts i Hi) as (_ & _ & _ & _ & Sn & G & _). unfold page_segs.
  rewrite zlen_map. unfold zlen. rewrite seq_length, Sn. lia.
Qed.

(* ---- counting ---- *)
Lemma cnt_app : forall p a b, cnt p (a ++ b) = cnt p a + cnt p b.
Proof. intros. unfold cnt. rewrite filter_app, zlen_app. reflexivity. Qed.
Lemma cnt_cons : forall p e L, cnt p (e :: L) = (if e_ptr e / PG =? p then 1 else 0) + cnt p L.
Proof. intros. unfold cnt. cbn [filter]. destruct (e_ptr e / PG =? p); rewrite ?zlen_cons; lia. Qed.
Lemma cnt_nonneg : forall p L, 0 <= cnt p L.
Proof. intros. apply zlen_nonneg. Qed.
Lemma cnt_zero : forall p L e, cnt p L = 0 -> In e L -> e_ptr e / PG <> p.
Proof.
  intros p L e H Hi E. unfold cnt in H. apply zlen_0_nil in H.
  assert (In e (filter (fun e => e_ptr e / PG =? p) L)) by (apply filter_In; split; [exact Hi | lia]). rewrite H in *. contradiction.
Qed.
Lemma cnt_pos : forall p L, 0 < cnt p L -> exists e, In e L /\ e_ptr e / PG = p.
Proof.
  intros p L H. unfold cnt in H. destruct (filter (fun e => e_ptr e / PG =? p) L) as [|e l] eqn:E; [rewrite zlen_nil in H; lia|].
  assert (Hi : In e (filter (fun e => e_ptr e / PG =? p) L)) by (rewrite E; left; reflexivity).
  apply filter_In in Hi as [H1 H2]. exists e. split; [exact H1 | lia].
Qed.
Lemma cntc_app : forall p a b, cntc p (a ++ b) = cntc p a + cntc p b.
Proof. intros. unfold cntc. rewrite filter_app, zlen_app. reflexivity. Qed.
Lemma cntc_cons : forall i e L, cntc i (e :: L) = (if is_slab (e_sz e) && (cls e =? i) then 1 else 0) + cntc i L.
Proof. intros. unfold cntc. cbn [filter]. destruct (is_slab (e_sz e) && (cls e =? i)); rewrite ?zlen_cons; lia. Qed.
Lemma cntc_nonneg : forall p L, 0 <= cntc p L.
Proof. intros. apply zlen_nonneg. Qed.
Lemma multi_cons : forall s n k U, multi ((s, n, k) :: U) = (match k with KMulti => n | _ => 0 end) + multi U.
Proof. intros. unfold multi. cbn [map snd fst]. rewrite zsum_cons. reflexivity. Qed.
Lemma multi_perm : forall a b, Permutation a b -> multi a = multi b.
Proof. intros a b H. unfold multi. apply zsum_perm. apply Permutation_map. exact H. Qed.
Lemma multi_pages : forall U, (forall s n k, In (s, n, k) U -> 0 < n) -> 0 <= multi U <= pages U.
Proof.
  induction U as [|[[s n] k] U IH]; intros H; [cbn; lia|]. rewrite multi_cons. unfold pages. cbn [map fst snd]. rewrite zsum_cons.
  fold (pages U). specialize (IH (fun s n k Hi => H s n k (or_intror Hi))). pose proof (H s n k (or_introl eq_refl)).
  destruct k; lia.
Qed.

Section Slab.
Variable c : qconf.
Notation N := (c_npgs c).
Notation Pool := (QallocProofs.Pool c).

(* hot: a page of a slab which may be without allocations *)
Record Inv (s : qst) (U : list chunk) (L : list ent) (hot : option Z) : Prop := mkInv {
  i_pool : Pool (q_pg s) (q_list s) U;
  i_use : q_use s = multi U;
  i_run : forall x n, In (x, n, KMulti) U ->
    exists e, In e L /\ is_slab (e_sz e) = false /\ e_ptr e = x * PG /\ npgs_of (e_sz e) = n;
  i_multi : forall e, In e L -> is_slab (e_sz e) = false ->
    e_ptr e mod PG = 0 /\ In (e_ptr e / PG, npgs_of (e_sz e), KMulti) U;
  i_slab : forall p n i, In (p, n, KSlab i) U -> n = 1 /\ 0 <= i < NSLABS /\ pg_sidx (q_pg s p) = i /\
    pg_snelems (q_pg s p) = PG / elemsz i /\ pg_snused (q_pg s p) = cnt p L /\ (hot = Some p \/ 0 < cnt p L);
  i_ent : forall e, In e L -> is_slab (e_sz e) = true ->
    In (e_ptr e / PG, 1, KSlab (cls e)) U /\ e_ptr e mod elemsz (cls e) = 0;
  i_nd : NoDup (map e_ptr L);
  i_lnd : forall i, 0 <= i < NSLABS -> NoDup (sl_list (q_slab s i));
  i_lin : forall i x, 0 <= i < NSLABS -> (In x (sl_list (q_slab s i)) <->
    In (x / PG, 1, KSlab i) U /\ x mod elemsz i = 0 /\ ~ In x (map e_ptr L));
  i_nfree : forall i, 0 <= i < NSLABS -> sl_nfree (q_slab s i) = zlen (sl_list (q_slab s i));
  i_nused : forall i, 0 <= i < NSLABS -> sl_nused (q_slab s i) = cntc i L;
  i_bytes : q_bytes s = zsum (map e_sz L);
  i_pos : forall e, In e L -> 0 < e_sz e <= MALLOC_MAX
}.
(* the bytes of the allocations L are the same *)
Definition Keep (L : list ent) (m m' : Z -> Z) : Prop :=
  forall e o, In e L -> 0 <= o < e_sz e -> m' (e_ptr e + o) = m (e_ptr e + o).
Lemma keep_refl : forall L m, Keep L m m. Proof. intros L m e o _ _; reflexivity. Qed.
Lemma keep_trans : forall L a b d, Keep L a b -> Keep L b d -> Keep L a d.
Proof. intros L a b d H1 H2 e o Hi Ho. rewrite H2 by assumption. apply H1; assumption. Qed.
Lemma keep_incl : forall L L' a b, Keep L a b -> incl L' L -> Keep L' a b.
Proof. intros L L' a b H Hi e o He Ho. apply H; auto. Qed.

Definition slab_cls (e : ent) (H : is_slab (e_sz e) = true) : 0 <= cls e < NSLABS := proj1 (sindex_facts _ H).
(* where an allocation is *)
Lemma place : forall s U L h e, Inv s U L h -> In e L ->
  exists p n k, In (p, n, k) U /\ p * PG <= e_ptr e /\ e_ptr e + e_sz e <= (p + n) * PG /\
    (is_slab (e_sz e) = true -> n = 1 /\ p = e_ptr e / PG /\ k = KSlab (cls e)) /\
    (is_slab (e_sz e) = false -> e_ptr e = p * PG /\ n = npgs_of (e_sz e) /\ k = KMulti).
Proof.
  intros s U L h e I He. pose proof (i_pos _ _ _ _ I e He) as Pz. destruct (is_slab (e_sz e)) eqn:Sl.
  - destruct (i_ent _ _ _ _ I e He Sl) as [Hu Hm]. exists (e_ptr e / PG), 1, (KSlab (cls e)).
    split; [exact Hu|]. destruct (elem_facts (cls e) (slab_cls e Sl)) as (D & E16 & _ & _ & _ & _ & _).
    pose proof (sindex_facts _ Sl) as [_ Hle]. fold (cls e) in Hle.
    split; [unfold PG; dlia|]. split; [|split; [auto | discriminate]].
    apply (elem_fits (cls e)); [exact (slab_cls e Sl) | exact Hm | exact Hle].
  - destruct (i_multi _ _ _ _ I e He Sl) as [Hm Hu]. exists (e_ptr e / PG), (npgs_of (e_sz e)), KMulti.
    assert (E : e_ptr e = e_ptr e / PG * PG) by (unfold PG in *; dlia).
    pose proof (npgs_facts _ Sl (proj1 Pz)) as (? & ? & ?).
    split; [exact Hu|]. split; [lia|]. split; [rewrite Z.mul_add_distr_r; lia|]. split; [discriminate | auto].
Qed.

Lemma mult_disj : forall w x y, 0 < w -> x mod w = 0 -> y mod w = 0 -> x <> y -> x + w <= y \/ y + w <= x.
Proof.
  intros w x y Hw Hx Hy Hn. apply Z.div_exact in Hx; [|lia]. apply Z.div_exact in Hy; [|lia].
  set (a := x / w) in *. set (b := y / w) in *. clearbody a b. subst x y.
  assert (a < b \/ b < a) as [H|H] by (destruct (Z.eq_dec a b); [subst; contradiction | lia]).
  - left. assert (w * (a + 1) <= w * b) by (apply Z.mul_le_mono_nonneg_l; lia). lia.
  - right. assert (w * (b + 1) <= w * a) by (apply Z.mul_le_mono_nonneg_l; lia). lia.
Qed.
Lemma ptr_inj : forall L e1 e2, NoDup (map e_ptr L) -> In e1 L -> In e2 L -> e_ptr e1 = e_ptr e2 -> e1 = e2.
Proof.
  induction L as [|a L IH]; intros e1 e2 ND H1 H2 E; [contradiction|]. cbn [map] in ND. inversion ND as [|? ? Hn ND']; subst.
  destruct H1 as [->|H1], H2 as [->|H2]; [reflexivity | | | exact (IH _ _ ND' H1 H2 E)].
  - exfalso. apply Hn. rewrite E. apply in_map. exact H2.
  - exfalso. apply Hn. rewrite <- E. apply in_map. exact H1.
Qed.
(* runs which differ are apart in bytes *)
Lemma run_apart : forall p n p' n' x y a b, p + n <= p' \/ p' + n' <= p ->
  p * PG <= x -> a <= (p + n) * PG -> p' * PG <= y -> b <= (p' + n') * PG -> a <= y \/ b <= x.
Proof.
  intros p n p' n' x y a b [H|H] H1 H2 H3 H4; assert (P0 : 0 < PG) by reflexivity.
  - left. assert ((p + n) * PG <= p' * PG) by (apply Z.mul_le_mono_nonneg_r; lia). lia.
  - right. assert ((p' + n') * PG <= p * PG) by (apply Z.mul_le_mono_nonneg_r; lia). lia.
Qed.
Lemma live_disj : forall s U L h e1 e2, Inv s U L h -> In e1 L -> In e2 L -> e1 <> e2 ->
  e_ptr e1 + e_sz e1 <= e_ptr e2 \/ e_ptr e2 + e_sz e2 <= e_ptr e1.
Proof.
  intros s U L h e1 e2 I H1 H2 Hn.
  assert (Hp : e_ptr e1 <> e_ptr e2) by (intros E; apply Hn; exact (ptr_inj _ _ _ (i_nd _ _ _ _ I) H1 H2 E)).
  destruct (place _ _ _ _ _ I H1) as (p & n & k & Hu & Ha & Hb & S1 & M1).
  destruct (place _ _ _ _ _ I H2) as (p' & n' & k' & Hu' & Ha' & Hb' & S2 & M2).
  destruct (pool_disj _ _ _ _ _ _ _ _ _ _ (i_pool _ _ _ _ I) Hu Hu') as [E|Hd]; [|exact (run_apart _ _ _ _ _ _ _ _ Hd Ha Hb Ha' Hb')].
  assert (p = p' /\ n = n' /\ k = k') as (<- & <- & <-) by (repeat split; congruence).
  destruct (is_slab (e_sz e1)) eqn:Sl1, (is_slab (e_sz e2)) eqn:Sl2.
  - destruct (S1 eq_refl) as (_ & _ & K1), (S2 eq_refl) as (_ & _ & K2). assert (Ec : cls e2 = cls e1) by congruence.
    destruct (i_ent _ _ _ _ I e1 H1 Sl1) as [_ X1], (i_ent _ _ _ _ I e2 H2 Sl2) as [_ X2]. rewrite Ec in X2.
    pose proof (sindex_facts _ Sl1) as [_ L1]. pose proof (sindex_facts _ Sl2) as [_ L2]. fold (cls e1) in L1. fold (cls e2) in L2. rewrite Ec in L2.
    destruct (elem_facts _ (slab_cls e1 Sl1)) as (_ & E16 & _).
    assert (W : 0 < elemsz (cls e1)) by lia. destruct (mult_disj _ _ _ W X1 X2 Hp); lia.
  - destruct (S1 eq_refl) as (_ & _ & K1), (M2 eq_refl) as (_ & _ & K2). congruence.
  - destruct (M1 eq_refl) as (_ & _ & K1), (S2 eq_refl) as (_ & _ & K2). congruence.
  - destruct (M1 eq_refl) as (X1 & _ & _), (M2 eq_refl) as (X2 & _ & _). congruence.
Qed.
Lemma elem_disj : forall s U L h e i x, Inv s U L h -> In e L -> 0 <= i < NSLABS -> In x (sl_list (q_slab s i)) ->
  x + elemsz i <= e_ptr e \/ e_ptr e + e_sz e <= x.
Proof.
  intros s U L h e i x I He Hi Hx. apply (i_lin _ _ _ _ I i x Hi) in Hx as (Hu & Hm & Hn).
  destruct (place _ _ _ _ _ I He) as (p & n & k & Hu' & Ha & Hb & S1 & M1).
  assert (X1 : x / PG * PG <= x) by (unfold PG; dlia). pose proof (elem_fits i x (elemsz i) Hi Hm ltac:(lia)) as X2.
  destruct (pool_disj _ _ _ _ _ _ _ _ _ _ (i_pool _ _ _ _ I) Hu Hu') as [E|Hd]; [|exact (run_apart _ _ _ _ _ _ _ _ Hd X1 X2 Ha Hb)].
  assert (p = x / PG /\ n = 1 /\ k = KSlab i) as (-> & -> & ->) by (repeat split; congruence).
  destruct (is_slab (e_sz e)) eqn:Sl; [|destruct (M1 eq_refl) as (_ & _ & ?); discriminate].
  destruct (S1 eq_refl) as (_ & _ & K). injection K as K.
  destruct (i_ent _ _ _ _ I e He Sl) as [_ X3]. rewrite <- K in X3.
  pose proof (sindex_facts _ Sl) as [_ L1]. fold (cls e) in L1. rewrite <- K in L1.
  destruct (elem_facts _ Hi) as (_ & E16 & _).
  assert (W : 0 < elemsz i) by lia. destruct (mult_disj _ _ _ W Hm X3); [intros E2; apply Hn; rewrite E2; apply in_map; exact He | lia | lia].
Qed.
Lemma keep_clobber : forall L l j m,
  (forall x e, In x l -> In e L -> x + SEG <= e_ptr e \/ e_ptr e + e_sz e <= x) -> Keep L m (clobber l j m).
Proof.
  intros L l j m H e o He Ho. unfold clobber.
  destruct (existsb (fun e0 => (e0 <=? e_ptr e + o) && (e_ptr e + o <? e0 + SEG)) l) eqn:E; [|reflexivity].
  apply existsb_exists in E as (x & Hx & Hb). destruct (H x e Hx He); lia.
Qed.
Lemma keep_fill : forall L m p n v, (forall e, In e L -> p + n <= e_ptr e \/ e_ptr e + e_sz e <= p) -> Keep L m (fill m p n v).
Proof.
  intros L m p n v H e o He Ho. unfold fill. destruct (H e He);
    destruct ((p <=? e_ptr e + o) && (e_ptr e + o <? p + n)) eqn:E; try reflexivity; lia.
Qed.
(* the invariant does not depend on the data *)
Lemma inv_mem : forall s U L h m, Inv s U L h -> Inv (set_mem s m) U L h.
Proof. intros s U L h m I. destruct I. constructor; assumption. Qed.
Lemma inv_pos_pages : forall s U L h, Inv s U L h -> 0 <= q_use s <= pages U.
Proof.
  intros s U L h I. rewrite (i_use _ _ _ _ I). apply multi_pages. intros x n k H.
  pose proof (pool_in _ _ _ _ _ _ _ (i_pool _ _ _ _ I) H). lia.
Qed.
(* no run of n free pages *)
Definition NoRun (U : list chunk) (n : Z) : Prop :=
  ~ exists a, 0 <= a /\ a + n <= N /\ forall p, a <= p < a + n -> ~ exists s m k, In (s, m, k) U /\ s <= p < s + m.
Lemma alloc_fail : forall s U L h n, Inv s U L h -> 0 < n ->
  (N < q_use s + n \/ forall x, In x (q_list s) -> pg_count (q_pg s x) < n) -> NoRun U n.
Proof.
  intros s U L h n I Hn H (a & Ha & HN & Hf).
  destruct (pool_run _ _ _ _ a n (i_pool _ _ _ _ I) Hn Ha HN Hf) as (x & Hx & H1 & H2).
  pose proof (pool_pages_free _ _ _ _ _ (i_pool _ _ _ _ I) Hx). pose proof (inv_pos_pages _ _ _ _ I).
  destruct H as [H|H]; [lia|]. pose proof (H x Hx). lia.
Qed.
Lemma perm_in_cons : forall (x : chunk) U y, In y (x :: U) <-> y = x \/ In y U.
Proof. intros. cbn [In]. split; intros [H|H]; auto. Qed.

(* ---- allocations of pages ---- *)
Lemma alloc_multi_ok : forall s U L id n v, Inv s U L None -> is_slab n = false -> 0 < n <= MALLOC_MAX ->
  (exists s' U' p, alloc_multi c n s = (s', ROk p) /\
     Inv (set_bytes s' (q_bytes s' + n)) U' (mkEnt id p n v :: L) None /\ q_mem s' = q_mem s) \/
  (alloc_multi c n s = (s, RErr QENOMEM) /\ NoRun U (npgs_of n)).
Proof.
  intros s U L id n v I Sl Hn. pose proof (npgs_facts n Sl (proj1 Hn)) as (N1 & N2 & N3).
  unfold alloc_multi, qbind at 1.
  destruct (pool_alloc c s (npgs_of n) KMulti U (i_pool _ _ _ _ I) N1 eq_refl) as [(pg' & l' & p & E & P' & Sf)|[E Hf]].
  - left. rewrite E. unfold qbind, qget, qput, qassert, qret. cbn [q_use set_use set_list set_pg].
    assert (Ub : q_use s + npgs_of n <= N).
    { pose proof (pool_pages _ _ _ _ P') as PP. unfold pages in PP. cbn [map fst snd] in PP. rewrite zsum_cons in PP.
      pose proof (inv_pos_pages _ _ _ _ I). unfold pages in *. lia. }
    replace (q_use s + npgs_of n <=? N) with true by (symmetry; apply Z.leb_le; exact Ub).
    eexists _, ((p, npgs_of n, KMulti) :: U), (p * PG). split; [reflexivity|]. split; [|reflexivity].
    assert (P0 : PG <> 0) by discriminate.
    constructor; cbn [set_bytes set_use set_list set_pg q_pg q_list q_use q_slab q_bytes q_mem].
    + exact P'.
    + rewrite multi_cons, (i_use _ _ _ _ I). lia.
    + intros x m H. apply perm_in_cons in H as [H|H].
      * exists (mkEnt id (p * PG) n v). split; [left; reflexivity|]. cbn [e_ptr e_sz]. split; [exact Sl|]. split; congruence.
      * destruct (i_run _ _ _ _ I x m H) as (e & He & X). exists e. split; [right; exact He | exact X].
    + intros e [<-|He] Se; cbn [e_ptr e_sz].
      * split; [apply Z.mod_mul; exact P0|]. rewrite Z.div_mul by exact P0. left. reflexivity.
      * destruct (i_multi _ _ _ _ I e He Se). split; [assumption | right; assumption].
    + intros x m i H. apply perm_in_cons in H as [H|H]; [discriminate|].
      destruct (i_slab _ _ _ _ I x m i H) as (A1 & A2 & A3 & A4 & A5 & A6).
      destruct (Sf x) as (F1 & F2 & F3). rewrite F1, F2, F3, cnt_cons. cbn [e_ptr].
      replace (p * PG / PG =? x) with false; [repeat split; try lia; assumption|].
      rewrite Z.div_mul by exact P0. symmetry. apply Z.eqb_neq. intros ->.
      destruct (pool_disj _ _ _ _ _ _ _ _ _ _ P' (or_introl eq_refl) (or_intror H)) as [Q|[Q|Q]]; [discriminate|lia|lia].
    + intros e [<-|He] Se; cbn [e_sz] in *; [congruence|].
      destruct (i_ent _ _ _ _ I e He Se). split; [right; assumption | assumption].
    + cbn [map e_ptr]. constructor; [|exact (i_nd _ _ _ _ I)]. intros Hin. apply in_map_iff in Hin as (e & E1 & He).
      destruct (place _ _ _ _ _ I He) as (x & m & k & Hu & Ha & Hb & _). pose proof (i_pos _ _ _ _ I e He).
      destruct (pool_disj _ _ _ _ _ _ _ _ _ _ P' (or_introl eq_refl) (or_intror Hu)) as [Q|Hd].
      * pose proof (pool_nodup _ _ _ _ P') as ND. inversion ND as [|? ? Hx _]; subst. apply Hx. rewrite Q. exact Hu.
      * assert (Y1 : p * PG <= p * PG) by lia. assert (Y2 : p * PG + n <= (p + npgs_of n) * PG) by (rewrite Z.mul_add_distr_r; lia).
        destruct (run_apart _ _ _ _ _ _ _ _ Hd Y1 Y2 Ha Hb); lia.
    + exact (i_lnd _ _ _ _ I).
    + intros i x Hi. rewrite (i_lin _ _ _ _ I i x Hi). cbn [map In e_ptr]. split.
      * intros (A1 & A2 & A3). split; [right; exact A1|]. split; [exact A2|]. intros [Q|Q]; [|exact (A3 Q)]. subst x.
        rewrite Z.div_mul in A1 by exact P0.
        destruct (pool_disj _ _ _ _ _ _ _ _ _ _ P' (or_introl eq_refl) (or_intror A1)) as [Q|[Q|Q]]; [discriminate|lia|lia].
      * intros ([A1|A1] & A2 & A3); [discriminate|]. tauto.
    + exact (i_nfree _ _ _ _ I).
    + intros i Hi. rewrite cntc_cons. cbn [e_sz]. rewrite Sl. cbn [andb]. rewrite (i_nused _ _ _ _ I i Hi). lia.
    + cbn [map e_sz]. rewrite zsum_cons, (i_bytes _ _ _ _ I). lia.
    + intros e [<-|He]; [cbn [e_sz]; exact Hn | exact (i_pos _ _ _ _ I e He)].
  - right. unfold qbind. rewrite E. split; [reflexivity|]. exact (alloc_fail _ _ _ _ _ I N1 Hf).
Qed.

(* ---- allocations of elements ---- *)
Lemma pool_same : forall pg pg' l U, Pool pg l U ->
  (forall p, pg_count (pg' p) = pg_count (pg p) /\ pg_free (pg' p) = pg_free (pg p) /\ pg_prev (pg' p) = pg_prev (pg p)) -> Pool pg' l U.
Proof.
  intros pg pg' l U (ch & [T A ND I] & E) H. exists ch. split; [|exact E]. constructor; try assumption.
  refine (proj2 (Tl_ext pg _ ch _ _ _ _ T)). intros p _. apply H.
Qed.
Lemma pool_slab : forall pg l U p i a b, Pool pg l U -> Pool (fset pg p (pg_slab (pg p) i a b)) l U.
Proof.
  intros pg l U p i a b H. apply (pool_same pg); [exact H|]. intros x. unfold fset.
  destruct (x =? p) eqn:E; [apply Z.eqb_eq in E; subst x|]; auto.
Qed.
Lemma ent_page : forall s U L h e, Inv s U L h -> In e L -> exists x m k, In (x, m, k) U /\ x <= e_ptr e / PG < x + m.
Proof.
  intros s U L h e I He. destruct (place _ _ _ _ _ I He) as (x & m & k & Hu & Ha & Hb & _). pose proof (i_pos _ _ _ _ I e He).
  exists x, m, k. split; [exact Hu|]. split; [apply Z.div_le_lower_bound; [reflexivity | lia]|].
  apply Z.div_lt_upper_bound; [reflexivity | lia].
Qed.
Lemma new_page_empty : forall s U L h p k pg' l' e, Inv s U L h -> Pool pg' l' ((p, 1, k) :: U) -> In e L -> e_ptr e / PG <> p.
Proof.
  intros s U L h p k pg' l' e I P' He E. destruct (ent_page _ _ _ _ _ I He) as (x & m & k' & Hu & Hb).
  destruct (pool_disj _ _ _ _ _ _ _ _ _ _ P' (or_introl eq_refl) (or_intror Hu)) as [Q|Hd]; [|lia].
  pose proof (pool_nodup _ _ _ _ P') as ND. inversion ND as [|? ? Hx _]; subst. apply Hx. rewrite Q. exact Hu.
Qed.
Lemma cnt_none : forall p L, (forall e, In e L -> e_ptr e / PG <> p) -> cnt p L = 0.
Proof.
  intros p L H. pose proof (cnt_nonneg p L). destruct (Z.eq_dec (cnt p L) 0) as [E|E]; [exact E|].
  destruct (cnt_pos p L) as (e & He & Ep); [lia|]. exfalso. exact (H e He Ep).
Qed.
Lemma seg_le_elem : forall i, 0 <= i < NSLABS -> SEG <= elemsz i.
Proof. intros i Hi. destruct (elem_facts i Hi) as (_ & ? & _). exact H. Qed.
Lemma slab_require_ok : forall s U L i j, Inv s U L None -> 0 <= i < NSLABS ->
  (exists s' U' h, slab_require c i j s = (s', ROk tt) /\ Inv s' U' L h /\ sl_list (q_slab s' i) <> [] /\
     Keep L (q_mem s) (q_mem s') /\
     (h = None \/ exists p, h = Some p /\ forall x, In x (sl_list (q_slab s' i)) -> x / PG = p)) \/
  (slab_require c i j s = (s, RErr QENOMEM) /\ NoRun U 1 /\ sl_list (q_slab s i) = []).
Proof.
  intros s U L i j I Hi. unfold slab_require. pose proof (i_nfree _ _ _ _ I i Hi) as Nf.
  destruct (Z.ltb_spec 0 (sl_nfree (q_slab s i))) as [Lt|Ge].
  - left. exists s, U, None. unfold qbind, qget. replace (0 <? sl_nfree (q_slab s i)) with true by lia. split; [reflexivity|].
    split; [exact I|]. split; [intros E; rewrite E, zlen_nil in Nf; lia|]. split; [apply keep_refl | left; reflexivity].
  - assert (Em : sl_list (q_slab s i) = []) by (apply zlen_0_nil; pose proof (zlen_nonneg _ (sl_list (q_slab s i))); lia).
    destruct (pool_alloc c s 1 (KSlab i) U (i_pool _ _ _ _ I) ltac:(lia) eq_refl) as [(pg' & l' & p & E & P' & Sf)|[E Hf]].
    + left. unfold qbind, qget. replace (0 <? sl_nfree (q_slab s i)) with false by lia. rewrite E. unfold slab_expand.
      cbn [set_bytes set_use set_list set_pg set_mem set_slab q_pg q_list q_use q_slab q_bytes q_mem]. rewrite Em. cbn [app].
      assert (NP : forall e, In e L -> e_ptr e / PG <> p) by (intros e He; exact (new_page_empty _ _ _ _ _ _ _ _ _ I P' He)).
      eexists _, ((p, 1, KSlab i) :: U), (Some p). split; [reflexivity|].
      cbn [set_bytes set_use set_list set_pg set_mem set_slab q_pg q_list q_use q_slab q_bytes q_mem]. rewrite fset_same. cbn [sl_list].
      split; [|split; [|split]].
      * constructor; cbn [set_bytes set_use set_list set_pg set_mem set_slab q_pg q_list q_use q_slab q_bytes q_mem].
        -- apply pool_slab. exact P'.
        -- rewrite multi_cons, (i_use _ _ _ _ I). lia.
        -- intros x m H. apply perm_in_cons in H as [H|H]; [discriminate|]. exact (i_run _ _ _ _ I x m H).
        -- intros e He Se. destruct (i_multi _ _ _ _ I e He Se). split; [assumption | right; assumption].
        -- intros x m i' H. apply perm_in_cons in H as [H|H].
           ++ assert (x = p /\ m = 1 /\ i' = i) as (-> & -> & ->) by (repeat split; congruence).
              rewrite fset_same. cbn [pg_slab pg_sidx pg_snused pg_snelems]. rewrite cnt_none by exact NP. auto 10.
           ++ assert (x <> p).
              { intros ->. destruct (pool_disj _ _ _ _ _ _ _ _ _ _ P' (or_introl eq_refl) (or_intror H)) as [Q|Q].
                - pose proof (pool_nodup _ _ _ _ P') as ND. inversion ND as [|? ? Hx _]; subst. apply Hx. rewrite Q. exact H.
                - pose proof (pool_in _ _ _ _ _ _ _ (i_pool _ _ _ _ I) H). lia. }
              rewrite fset_other by assumption. destruct (i_slab _ _ _ _ I x m i' H) as (A1 & A2 & A3 & A4 & A5 & A6).
              destruct (Sf x) as (F1 & F2 & F3). rewrite F1, F2, F3.
              destruct A6 as [A6|A6]; [discriminate|]. auto 10.
        -- intros e He Se. destruct (i_ent _ _ _ _ I e He Se). split; [right; assumption | assumption].
        -- exact (i_nd _ _ _ _ I).
        -- intros i' Hi'. unfold fset. destruct (i' =? i) eqn:Ei; [apply Z.eqb_eq in Ei; subst i'; cbn [sl_list]; apply segs_nodup; exact Hi|].
           exact (i_lnd _ _ _ _ I i' Hi').
        -- intros i' x Hi'. unfold fset. destruct (i' =? i) eqn:Ei.
           ++ apply Z.eqb_eq in Ei. subst i'. cbn [sl_list]. rewrite in_segs by exact Hi. split.
              ** intros [H1 H2]. split; [left; congruence|]. split; [exact H2|]. intros Hin. apply in_map_iff in Hin as (e & E1 & He).
                 apply (NP e He). rewrite E1. exact H1.
              ** intros ([H1|H1] & H2 & H3); [split; [congruence | exact H2]|].
                 exfalso. assert (In x (sl_list (q_slab s i))) by (apply (i_lin _ _ _ _ I i x Hi); auto). rewrite Em in *. contradiction.
           ++ apply Z.eqb_neq in Ei. rewrite (i_lin _ _ _ _ I i' x Hi'). cbn [In]. split; [tauto|].
              intros ([H1|H1] & H2 & H3); [exfalso; apply Ei; congruence | tauto].
        -- intros i' Hi'. unfold fset. destruct (i' =? i) eqn:Ei; [|exact (i_nfree _ _ _ _ I i' Hi')].
           cbn [sl_nfree sl_list]. rewrite Nf, Em, zlen_nil. lia.
        -- intros i' Hi'. unfold fset. destruct (i' =? i) eqn:Ei; [|exact (i_nused _ _ _ _ I i' Hi')].
           apply Z.eqb_eq in Ei. subst i'. cbn [sl_nused]. exact (i_nused _ _ _ _ I i Hi).
        -- exact (i_bytes _ _ _ _ I).
        -- exact (i_pos _ _ _ _ I).
      * intros E0. pose proof (segs_len i p Hi) as Ln. rewrite E0, zlen_nil in Ln. destruct (elem_facts i Hi) as (_ & _ & _ & _ & _ & ? & _). lia.
      * apply keep_clobber. intros x e Hx He. apply in_segs in Hx as [Hx1 Hx2]; [|exact Hi].
        destruct (place _ _ _ _ _ I He) as (y & m & k & Hu & Ha & Hb & _).
        destruct (pool_disj _ _ _ _ _ _ _ _ _ _ P' (or_introl eq_refl) (or_intror Hu)) as [Q|Hd].
        { pose proof (pool_nodup _ _ _ _ P') as ND. inversion ND as [|? ? Hz _]; subst. exfalso. apply Hz. rewrite Q. exact Hu. }
        pose proof (elem_fits i x SEG Hi Hx2 (seg_le_elem i Hi)) as X2. rewrite Hx1 in X2.
        assert (X1 : p * PG <= x) by (subst p; unfold PG; dlia).
        exact (run_apart _ _ _ _ _ _ _ _ Hd X1 X2 Ha Hb).
      * right. exists p. split; [reflexivity|]. intros x Hx. apply in_segs in Hx as [Hx _]; [exact Hx | exact Hi].
    + right. unfold qbind, qget. replace (0 <? sl_nfree (q_slab s i)) with false by lia. rewrite E. split; [reflexivity|].
      split; [exact (alloc_fail _ _ _ _ 1 I ltac:(lia) Hf) | exact Em].
Qed.
(* a page with a free element is not full *)
Lemma page_room : forall s U L h i x, Inv s U L h -> 0 <= i < NSLABS -> In x (sl_list (q_slab s i)) -> cnt (x / PG) L < PG / elemsz i.
Proof.
  intros s U L h i x I Hi Hx. apply (i_lin _ _ _ _ I i x Hi) in Hx as (Hu & Hm & Hn).
  set (F := filter (fun e => e_ptr e / PG =? x / PG) L).
  assert (ND : NoDup (x :: map e_ptr F)).
  { constructor.
    - intros H. apply in_map_iff in H as (e & E & He). apply filter_In in He as [He _]. apply Hn. rewrite <- E. apply in_map. exact He.
    - clear -I. pose proof (i_nd _ _ _ _ I) as ND. unfold F. clear F I. induction L as [|e L IH]; cbn [filter map]; [constructor|].
      cbn [map] in ND. inversion ND as [|? ? H1 H2]; subst. destruct (e_ptr e / PG =? x / PG); [|exact (IH H2)].
      cbn [map]. constructor; [|exact (IH H2)]. intros H. apply H1. apply in_map_iff in H as (e' & E & He). apply filter_In in He as [He _].
      rewrite <- E. apply in_map. exact He. }
  assert (IN : incl (x :: map e_ptr F) (page_segs i (x / PG))).
  { intros y [<-|Hy]; [apply in_segs; auto|]. apply in_map_iff in Hy as (e & <- & He). apply filter_In in He as [He Hp].
    apply Z.eqb_eq in Hp. apply in_segs; [exact Hi|]. split; [exact Hp|].
    destruct (place _ _ _ _ _ I He) as (p & n & k & Hu' & Ha & Hb & S1 & M1). pose proof (i_pos _ _ _ _ I e He) as Pz.
    assert (Q : (x / PG, 1, KSlab i) = (p, n, k)).
    { destruct (pool_disj _ _ _ _ _ _ _ _ _ _ (i_pool _ _ _ _ I) Hu Hu') as [Q|Q]; [exact Q|]. exfalso.
      assert (p <= e_ptr e / PG) by (apply Z.div_le_lower_bound; [reflexivity | lia]).
      assert (e_ptr e / PG < p + n) by (apply Z.div_lt_upper_bound; [reflexivity | lia]). lia. }
    destruct (is_slab (e_sz e)) eqn:Sl; [|destruct (M1 eq_refl) as (_ & _ & K); congruence].
    destruct (S1 eq_refl) as (_ & _ & K). assert (Kc : cls e = i) by congruence.
    destruct (i_ent _ _ _ _ I e He Sl) as [_ X]. rewrite Kc in X. exact X. }
  pose proof (NoDup_incl_length ND IN) as Le. cbn [length] in Le. rewrite map_length in Le.
  pose proof (segs_len i (x / PG) Hi) as Ln. unfold zlen in Ln. unfold cnt, zlen. fold F. lia.
Qed.
Lemma slab_alloc_ok : forall s U L id n v j, Inv s U L None -> is_slab n = true ->
  (exists s' U' p, slab_do_alloc c (sindex_of n) j s = (s', ROk p) /\
     Inv (set_bytes s' (q_bytes s' + n)) U' (mkEnt id p n v :: L) None /\ Keep L (q_mem s) (q_mem s')) \/
  (slab_do_alloc c (sindex_of n) j s = (s, RErr QENOMEM) /\ NoRun U 1 /\ sl_list (q_slab s (sindex_of n)) = []).
Proof.
  intros s U L id n v j I Sl. destruct (sindex_facts n Sl) as [Hi Hle]. set (i := sindex_of n) in *.
  unfold slab_do_alloc.
  destruct (slab_require_ok s U L i j I Hi) as [(s1 & U1 & h & E & I1 & Ne & K1 & Hot)|(E & Nr & Em)].
  - left. unfold qbind at 1. rewrite E. unfold qbind at 1. unfold slab_alloc.
    destruct (sl_list (q_slab s1 i)) as [|x l] eqn:El; [contradiction|].
    pose proof (i_nfree _ _ _ _ I1 i Hi) as Nf. rewrite El, zlen_cons in Nf. pose proof (zlen_nonneg _ l) as Lz.
    replace (sl_nfree (q_slab s1 i) <=? 0) with false by lia.
    assert (Hx : In x (sl_list (q_slab s1 i))) by (rewrite El; left; reflexivity).
    pose proof (page_room _ _ _ _ i x I1 Hi Hx) as Room.
    pose proof (proj1 (i_lin _ _ _ _ I1 i x Hi) Hx) as (Hu & Hm & Hn).
    destruct (pool_in _ _ _ _ _ _ _ (i_pool _ _ _ _ I1) Hu) as (P0 & _ & P1 & _).
    destruct (i_slab _ _ _ _ I1 _ _ _ Hu) as (_ & _ & A3 & A4 & A5 & A6).
    unfold page_of, qbind, qassert, qret, qget, upd_pg.
    replace (x / PG <? N) with true by lia.
    cbn [set_bytes set_use set_list set_pg set_mem set_slab q_pg q_list q_use q_slab q_bytes q_mem].
    rewrite A5, A4. replace (cnt (x / PG) L <? PG / elemsz i) with true by lia.
    eexists _, U1, x. split; [reflexivity|].
    cbn [set_bytes set_use set_list set_pg set_mem set_slab q_pg q_list q_use q_slab q_bytes q_mem].
    split.
    + constructor; cbn [set_bytes set_use set_list set_pg set_mem set_slab q_pg q_list q_use q_slab q_bytes q_mem].
      * apply pool_slab. exact (i_pool _ _ _ _ I1).
      * exact (i_use _ _ _ _ I1).
      * intros y m H. destruct (i_run _ _ _ _ I1 y m H) as (e & He & X). exists e. split; [right; exact He | exact X].
      * intros e [<-|He] Se; [cbn [e_sz] in Se; congruence|]. exact (i_multi _ _ _ _ I1 e He Se).
      * intros y m i' H. destruct (i_slab _ _ _ _ I1 y m i' H) as (B1 & B2 & B3 & B4 & B5 & B6).
        rewrite cnt_cons. cbn [e_ptr]. unfold fset. destruct (y =? x / PG) eqn:Ey.
        -- apply Z.eqb_eq in Ey. subst y. rewrite Z.eqb_refl. cbn [pg_slab pg_sidx pg_snused pg_snelems].
           pose proof (cnt_nonneg (x / PG) L) as Cz. clear -B1 B2 B3 B4 B5 Cz.
           split; [exact B1|]. split; [exact B2|]. split; [exact B3|]. split; [exact B4|]. split; [rewrite B5; apply Z.add_comm | right; generalize dependent (cnt (x / PG) L); intros; lia].
        -- apply Z.eqb_neq in Ey. replace (x / PG =? y) with false by (symmetry; apply Z.eqb_neq; congruence). rewrite Z.add_0_l.
           split; [exact B1|]. split; [exact B2|]. split; [exact B3|]. split; [exact B4|]. split; [exact B5|]. right. destruct B6 as [B6|B6]; [|exact B6].
           destruct Hot as [Hot|(p & Hot & Hp)]; [congruence|]. exfalso. apply Ey. rewrite (Hp x (or_introl eq_refl)). congruence.
      * intros e [<-|He] Se; cbn [e_ptr cls e_sz]; [split; [exact Hu | exact Hm]|]. exact (i_ent _ _ _ _ I1 e He Se).
      * cbn [map e_ptr]. constructor; [exact Hn | exact (i_nd _ _ _ _ I1)].
      * intros i' Hi'. unfold fset. destruct (i' =? i) eqn:Ei; [|exact (i_lnd _ _ _ _ I1 i' Hi')]. cbn [sl_list].
        pose proof (i_lnd _ _ _ _ I1 i Hi) as ND. rewrite El in ND. inversion ND; assumption.
      * intros i' y Hi'. pose proof (i_lin _ _ _ _ I1 i' y Hi') as Q. cbn [map In e_ptr]. unfold fset. destruct (i' =? i) eqn:Ei.
        -- apply Z.eqb_eq in Ei. subst i'. cbn [sl_list]. rewrite El in Q. cbn [In] in Q.
           pose proof (i_lnd _ _ _ _ I1 i Hi) as ND. rewrite El in ND. inversion ND as [|? ? Nx _]; subst.
           split.
           ++ intros H. destruct (proj1 Q (or_intror H)) as (C1 & C2 & C3). split; [exact C1|]. split; [exact C2|].
              intros [->|H']; [exact (Nx H) | exact (C3 H')].
           ++ intros (C1 & C2 & C3). destruct (proj2 Q) as [H|H]; [tauto | exfalso; apply C3; left; exact H | exact H].
        -- apply Z.eqb_neq in Ei. rewrite Q. split; [|tauto]. intros (C1 & C2 & C3). split; [exact C1|]. split; [exact C2|].
           intros [Ex|H']; [|exact (C3 H')]. subst y.
           destruct (pool_disj _ _ _ _ _ _ _ _ _ _ (i_pool _ _ _ _ I1) Hu C1) as [D|D]; [apply Ei; congruence | lia].
      * intros i' Hi'. unfold fset. destruct (i' =? i) eqn:Ei; [|exact (i_nfree _ _ _ _ I1 i' Hi')]. cbn [sl_nfree sl_list]. lia.
      * intros i' Hi'. rewrite cntc_cons. cbn [e_sz]. unfold cls. cbn [e_sz]. rewrite Sl. fold i. cbn [andb].
        unfold fset. destruct (i' =? i) eqn:Ei.
        -- apply Z.eqb_eq in Ei. subst i'. rewrite Z.eqb_refl. cbn [sl_nused]. rewrite (i_nused _ _ _ _ I1 i Hi). lia.
        -- apply Z.eqb_neq in Ei. replace (i =? i') with false by lia. rewrite (i_nused _ _ _ _ I1 i' Hi'). lia.
      * cbn [map e_sz]. rewrite zsum_cons, (i_bytes _ _ _ _ I1). lia.
      * intros e [<-|He]; [|exact (i_pos _ _ _ _ I1 e He)]. cbn [e_sz]. pose proof (slab_range _ Sl). unfold SLAB_MAX, MALLOC_MAX in *. lia.
    + eapply keep_trans; [exact K1|]. apply keep_clobber. intros y e Hy He. pose proof (seg_le_elem i Hi).
      assert (Hy' : In y (sl_list (q_slab s1 i))) by (rewrite El; exact Hy).
      destruct (elem_disj _ _ _ _ e i y I1 He Hi Hy'); lia.
  - right. unfold qbind. rewrite E. split; [reflexivity|]. split; assumption.
Qed.
Lemma malloc_ok : forall s U L id n flags j, Inv s U L None -> 0 <= n ->
  let v := fun _ : Z => if has_flag flags 1 then Some 0 else None in
  (exists s' U' p, qmalloc c n flags j s = (s', ROk (Some p)) /\ Inv s' U' (mkEnt id p n v :: L) None /\
     Keep L (q_mem s) (q_mem s') /\ (has_flag flags 1 = true -> forall o, 0 <= o < n -> q_mem s' (p + o) = 0)) \/
  (qmalloc c n flags j s = (s, ROk None) /\
     (n = 0 \/ MALLOC_MAX < n \/ (is_slab n = false /\ NoRun U (npgs_of n)) \/
      (is_slab n = true /\ NoRun U 1 /\ sl_list (q_slab s (sindex_of n)) = []))).
Proof.
  intros s U L id n flags j I Hn v. unfold qmalloc, do_malloc.
  destruct (Z.eqb_spec n 0) as [->|Nz]; [right; split; [reflexivity | auto]|].
  destruct (Z.ltb_spec MALLOC_MAX n) as [Gt|Le]; [right; split; [reflexivity | auto]|].
  assert (Main : forall s1 U1 p, Inv (set_bytes s1 (q_bytes s1 + n)) U1 (mkEnt id p n v :: L) None -> Keep L (q_mem s) (q_mem s1) ->
    let s2 := set_bytes s1 (q_bytes s1 + n) in
    let s' := if has_flag flags 1 then set_mem s2 (fill (q_mem s2) p n 0) else s2 in
    Inv s' U1 (mkEnt id p n v :: L) None /\ Keep L (q_mem s) (q_mem s') /\
    (has_flag flags 1 = true -> forall o, 0 <= o < n -> q_mem s' (p + o) = 0)).
  { intros s1 U1 p I1 K1 s2 s'. unfold s'. destruct (has_flag flags 1).
    - split; [apply inv_mem; exact I1|]. split.
      + eapply keep_trans; [exact K1|]. cbn [set_mem q_mem]. change (q_mem s2) with (q_mem s1). apply keep_fill. intros e He.
        assert (Hne : mkEnt id p n v <> e).
        { intros E. pose proof (i_nd _ _ _ _ I1) as ND. cbn [map] in ND. inversion ND as [|? ? Hx _]; subst.
          apply Hx. apply (in_map e_ptr) in He. exact He. }
        pose proof (live_disj _ _ _ _ _ _ I1 (or_introl eq_refl) (or_intror He) Hne) as D. cbn [e_ptr e_sz] in D. exact D.
      + intros _ o Ho. cbn [set_mem q_mem]. unfold fill. replace ((p <=? p + o) && (p + o <? p + n)) with true by lia. reflexivity.
    - split; [exact I1|]. split; [exact K1 | discriminate]. }
  destruct (is_slab n) eqn:Sl.
  - destruct (sindex_facts n Sl) as [Hi _]. unfold slab_of, qassert, qret.
    replace (sindex_of n =? SIDX_NONE) with false by (unfold SIDX_NONE; lia). cbn [negb]. unfold qbind, qget, qput.
    destruct (slab_alloc_ok s U L id n v j I Sl) as [(s1 & U1 & p & E & I1 & K1)|(E & Nr & Em)]; rewrite E.
    + left. destruct (Main s1 U1 p I1 K1) as (M1 & M2 & M3). eexists _, U1, p. split; [reflexivity|]. auto.
    + right. split; [reflexivity|]. right. right. right. auto.
  - unfold qbind, qget, qput, qret. destruct (alloc_multi_ok s U L id n v I Sl ltac:(lia)) as [(s1 & U1 & p & E & I1 & K1)|(E & Nr)]; rewrite E.
    + left. destruct (Main s1 U1 p I1) as (M1 & M2 & M3); [rewrite K1; apply keep_refl|].
      eexists _, U1, p. split; [reflexivity|]. auto.
    + right. split; [reflexivity|]. right. right. left. auto.
Qed.
End Slab.
