(* Property C29: the memory pool.  What the owners of memory see of any history of malloc, free and
   writes to the allocated bytes. *)
From Coq Require Import ZArith List Lia Bool Permutation.
From Coq Require Import ZifyBool.
From Verif Require Import Base QallocModel QallocProofs QallocSlab QallocFree.
Import ListNotations.
Local Open Scope Z_scope.

(* ---- the owners ---- *)

(* j: what the links of list elements put in the first bytes of free elements, see QallocModel.v *)
Inductive call :=
  | CMalloc (n flags : Z) (j : Z -> Z)          (* silofs_qalloc_malloc *)
  | CFree (id flags : Z) (j : Z -> Z)           (* silofs_qalloc_free of the live allocation named id *)
  | CWrite (id off v : Z).                      (* the owner stores a byte *)
Record world := mkW { w_st : qst; w_live : list ent; w_next : Z }.
Definition known (flags : Z) : Z -> option Z := fun _ => if Z.odd flags then Some 0 else None.
Definition find_ent (id : Z) (L : list ent) : option ent := find (fun e => e_id e =? id) L.
Definition del_ent (id : Z) (L : list ent) : list ent := filter (fun e => negb (e_id e =? id)) L.
Definition put_val (id off v : Z) (e : ent) : ent :=
  if e_id e =? id then mkEnt (e_id e) (e_ptr e) (e_sz e) (fset (e_val e) off (Some v)) else e.
(* None: the process does not survive *)
Definition step (c : qconf) (x : call) (w : world) : option world :=
  match x with
  | CMalloc n flags j =>
    match qmalloc c n flags j (w_st w) with
    | (s, ROk (Some p)) => Some (mkW s (mkEnt (w_next w) p n (known flags) :: w_live w) (w_next w + 1))
    | (s, ROk None) => Some (mkW s (w_live w) (w_next w))
    | _ => None
    end
  | CFree id flags j =>
    match find_ent id (w_live w) with
    | None => Some w
    | Some e => match qfree c (e_ptr e) (e_sz e) flags j (w_st w) with
                | (s, ROk _) => Some (mkW s (del_ent id (w_live w)) (w_next w))
                | _ => None
                end
    end
  | CWrite id off v =>
    match find_ent id (w_live w) with
    | None => Some w
    | Some e => if (0 <=? off) && (off <? e_sz e)
                then Some (mkW (set_mem (w_st w) (fset (q_mem (w_st w)) (e_ptr e + off) v)) (map (put_val id off v) (w_live w)) (w_next w))
                else Some w
    end
  end.
Fixpoint run (c : qconf) (cs : list call) (w : world) : option world :=
  match cs with
  | [] => Some w
  | x :: r => match step c x w with Some w' => run c r w' | None => None end
  end.
Definition w_init (c : qconf) : world := mkW (q_init c) [] 0.
(* sizes are of type size_t *)
Definition legal (x : call) : Prop := match x with CMalloc n _ _ => 0 <= n | _ => True end.

(* ---- what is required ---- *)

(* the size class of a small allocation: the least power of two from 16 on which is not below n *)
Definition class_of (n : Z) : option Z :=
  find (fun w => n <=? w) [16; 32; 64; 128; 256; 512; 1024; 2048; 4096; 8192; 16384; 32768].
Definition in_page (e : ent) (p : Z) : Prop := e_ptr e < (p + 1) * 65536 /\ p * 65536 < e_ptr e + e_sz e.
Definition apart (e : ent) (a n : Z) : Prop := a + n <= e_ptr e \/ e_ptr e + e_sz e <= a.
(* there is room for n bytes *)
Definition room (npages : Z) (L : list ent) (n : Z) : Prop :=
  0 < n <= 67108864 /\
  match class_of n with
  | Some w => exists a, 0 <= a /\ a + w <= npages * 65536 /\ a mod w = 0 /\
      (forall e, In e L -> apart e a w) /\
      (forall e, In e L -> in_page e (a / 65536) -> class_of (e_sz e) = Some w)
  | None => exists p, let k := (n + 65535) / 65536 in 0 <= p /\ p + k <= npages /\
      (forall e q, In e L -> p <= q < p + k -> ~ in_page e q)
  end.
Definition run_of (s : qst) (x : Z) : Z := pg_count (q_pg s x).
Record fine (c : qconf) (w : world) : Prop := mkFine {
  f_ids : NoDup (map e_id (w_live w));
  f_in : forall e, In e (w_live w) -> 0 < e_sz e /\ 0 <= e_ptr e /\ e_ptr e + e_sz e <= c_npgs c * 65536;
  f_align : forall e, In e (w_live w) -> e_ptr e mod (match class_of (e_sz e) with Some x => x | None => 65536 end) = 0;
  f_apart : forall e e', In e (w_live w) -> In e' (w_live w) -> e_id e <> e_id e' -> apart e (e_ptr e') (e_sz e');
  f_data : forall e o v, In e (w_live w) -> 0 <= o < e_sz e -> e_val e o = Some v -> q_mem (w_st w) (e_ptr e + o) = v;
  (* the list of free runs *)
  f_free : forall p, 0 <= p < c_npgs c ->
    ((exists x, In x (q_list (w_st w)) /\ x <= p < x + run_of (w_st w) x) <-> forall e, In e (w_live w) -> ~ in_page e p);
  f_once : NoDup (q_list (w_st w));
  f_bound : forall x, In x (q_list (w_st w)) -> 0 <= x /\ 0 < run_of (w_st w) x /\ x + run_of (w_st w) x <= c_npgs c;
  f_sep : forall x y, In x (q_list (w_st w)) -> In y (q_list (w_st w)) -> x <> y ->
    x + run_of (w_st w) x < y \/ y + run_of (w_st w) y < x;
  f_bytes : q_bytes (w_st w) = zsum (map e_sz (w_live w))
}.

(* ---- classes ---- *)
Lemma class_none : forall n, 0 < n -> (class_of n = None <-> is_slab n = false).
Proof.
  intros n Hn. unfold class_of, is_slab, SLAB_MAX. cbn [find].
  repeat match goal with |- context [n <=? ?x] => destruct (Z.leb_spec n x) end; split; intros; try discriminate; try reflexivity; try lia.
Qed.
Ltac nums n :=
  repeat match goal with H : context [elemsz ?i] |- _ => let v := eval cbv in (elemsz i) in change (elemsz i) with v in H end;
  repeat match goal with |- context [elemsz ?i] => let v := eval cbv in (elemsz i) in change (elemsz i) with v end;
  repeat match goal with |- context [n <=? ?x] => first [replace (n <=? x) with true by lia | replace (n <=? x) with false by lia] end; reflexivity.
Lemma class_slab : forall n, is_slab n = true -> class_of n = Some (elemsz (sindex_of n)).
Proof.
  intros n Sl. pose proof (slab_range n Sl) as R. destruct (sindex_facts n Sl) as [Hi Hle].
  assert (Lo : sindex_of n = 0 \/ elemsz (sindex_of n - 1) < n).
  { destruct (Z.eq_dec (sindex_of n) 0) as [E|E]; [left; exact E | right].
    destruct (elem_facts (sindex_of n - 1)) as (_ & _ & _ & _ & _ & _ & ->); [lia|].
    assert (Eb : sindex_of n = bits ((n - 1) / 16)).
    { revert Hi. clear. intros Hi. unfold sindex_of in Hi |- *.
      destruct (negb (is_slab n)); [unfold SIDX_NONE in Hi; lia|]. unfold clz32 in *. rewrite Z.shiftr_div_pow2 in * by lia. change (2 ^ 4) with 16 in *. revert Hi.
      destruct ((32 - bits ((n - 1) / 16) =? 0) || (32 <? 32 - bits ((n - 1) / 16))); [unfold SIDX_NONE; lia|].
      destruct (NSLABS <=? 32 - (32 - bits ((n - 1) / 16))); [unfold SIDX_NONE; lia | lia]. }
    rewrite Eb in *. set (x := (n - 1) / 16) in *. unfold bits in *.
    destruct (x =? 0) eqn:E3; [contradiction E; reflexivity|]. replace (Z.log2 x + 1 - 1) with (Z.log2 x) by lia.
    assert (0 <= x) by (unfold x; Z.div_mod_to_equations; lia).
    destruct (Z.log2_spec x) as [S1 _]; [lia|]. assert (16 * x <= n - 1) by (unfold x; Z.div_mod_to_equations; lia). lia. }
  set (i := sindex_of n) in *. clearbody i. unfold NSLABS in Hi. unfold class_of. cbn [find].
  assert (H : i = 0 \/ i = 1 \/ i = 2 \/ i = 3 \/ i = 4 \/ i = 5 \/ i = 6 \/ i = 7 \/ i = 8 \/ i = 9 \/ i = 10 \/ i = 11) by lia.
  repeat (destruct H as [->|H]; [nums n|]). subst i. nums n.
Qed.
Lemma elemsz_inj : forall i j, 0 <= i < NSLABS -> 0 <= j < NSLABS -> elemsz i = elemsz j -> i = j.
Proof.
  intros i j Hi Hj E. destruct (elem_facts i Hi) as (_ & _ & _ & _ & _ & _ & Ei), (elem_facts j Hj) as (_ & _ & _ & _ & _ & _ & Ej).
  apply (Z.pow_inj_r 2); lia.
Qed.

(* ---- the free runs ---- *)
Lemma adj_gap : forall pg ch b prev s e x n, Tl pg prev s e ch -> nadj b ch -> In (x, n, KFree) ch -> b = true -> s < x.
Proof.
  intros pg [|[[s0 n0] k0] ch] b prev s e x n; cbn [Tl nadj In]; [tauto|].
  intros (-> & H1 & _ & _ & _ & H5) [A _] [E|H] B.
  - assert (k0 = KFree) by congruence. subst k0. specialize (A B). discriminate.
  - pose proof (Tl_in _ _ _ _ _ _ _ _ H5 H). lia.
Qed.
Lemma adj_sep : forall pg ch b prev s e x n y m, Tl pg prev s e ch -> nadj b ch -> In (x, n, KFree) ch -> In (y, m, KFree) ch -> x <> y ->
  x + n < y \/ y + m < x.
Proof.
  induction ch as [|[[s0 n0] k0] ch IH]; intros b prev s e x n y m; cbn [Tl nadj In]; [tauto|].
  intros (-> & H1 & _ & _ & _ & H5) [A B] [E|H] [E'|H'] Hn.
  - exfalso. apply Hn. congruence.
  - assert (s = x /\ n0 = n /\ k0 = KFree) as (-> & -> & ->) by (repeat split; congruence).
    left. exact (adj_gap _ _ _ _ _ _ _ _ H5 B H' eq_refl).
  - assert (s = y /\ n0 = m /\ k0 = KFree) as (-> & -> & ->) by (repeat split; congruence).
    right. exact (adj_gap _ _ _ _ _ _ _ _ H5 B H eq_refl).
  - exact (IH _ _ _ _ _ _ _ _ H5 B H H' Hn).
Qed.
Lemma npgs_eq : forall n, (n + 65535) / 65536 = npgs_of n.
Proof. intros n. unfold npgs_of, PG. f_equal. lia. Qed.
Section Props.
Variable c : qconf.
Notation N := (c_npgs c).
Notation Inv := (Inv c).
Lemma pool_list : forall pg l U, Pool c pg l U -> NoDup l /\ (forall x, In x l -> 0 <= x /\ 0 < pg_count (pg x) /\ x + pg_count (pg x) <= N) /\
  (forall x y, In x l -> In y l -> x <> y -> x + pg_count (pg x) < y \/ y + pg_count (pg y) < x).
Proof.
  intros pg l U (ch & [T A ND I] & _). split; [exact ND|]. split.
  - intros x Hx. apply I in Hx as [n Hx]. pose proof (Tl_in _ _ _ _ _ _ _ _ T Hx) as (? & ? & ? & -> & _). auto.
  - intros x y Hx Hy Hn. apply I in Hx as [n Hx]. apply I in Hy as [m Hy].
    pose proof (Tl_in _ _ _ _ _ _ _ _ T Hx) as (_ & _ & _ & -> & _). pose proof (Tl_in _ _ _ _ _ _ _ _ T Hy) as (_ & _ & _ & -> & _).
    exact (adj_sep _ _ _ _ _ _ _ _ _ _ T A Hx Hy Hn).
Qed.

(* which pages are in use *)
Lemma page_in : forall s U L h e p, Inv s U L h -> In e L -> (in_page e p <-> exists x m k, In (x, m, k) U /\ x <= p < x + m /\
  e_ptr e < (p + 1) * PG /\ p * PG < e_ptr e + e_sz e).
Proof.
  intros s U L h e p I He. unfold in_page. fold PG. split.
  - intros [H1 H2]. destruct (place _ _ _ _ _ _ I He) as (x & m & k & Hu & Ha & Hb & _).
    exists x, m, k. split; [exact Hu|]. split; [|auto]. split.
    + assert (x < p + 1); [|lia]. apply (Z.mul_lt_mono_pos_r PG); [reflexivity | lia].
    + apply (Z.mul_lt_mono_pos_r PG); [reflexivity | lia].
  - intros (x & m & k & _ & _ & H1 & H2). auto.
Qed.
Lemma used_page : forall s U L p, Inv s U L None ->
  ((exists x m k, In (x, m, k) U /\ x <= p < x + m) <-> exists e, In e L /\ in_page e p).
Proof.
  intros s U L p I. split.
  - intros (x & m & [| |i] & Hu & Hp).
    + pose proof (pool_in _ _ _ _ _ _ _ (i_pool _ _ _ _ _ I) Hu) as (_ & _ & _ & F & _). discriminate.
    + destruct (i_run _ _ _ _ _ I x m Hu) as (e & He & Sl & Ep & En). exists e. split; [exact He|].
      pose proof (i_pos _ _ _ _ _ I e He) as Pz. destruct (npgs_facts _ Sl (proj1 Pz)) as (N1 & N2 & N3). rewrite En in *.
      unfold in_page. fold PG. rewrite Ep. split.
      * apply (proj1 (Z.mul_lt_mono_pos_r PG x (p + 1) eq_refl)). lia.
      * assert (p * PG <= (x + (m - 1)) * PG) by (apply Z.mul_le_mono_nonneg_r; [discriminate | lia]).
        rewrite Z.mul_add_distr_r in H. lia.
    + destruct (i_slab _ _ _ _ _ I x m i Hu) as (-> & _ & _ & _ & _ & [F|C]); [discriminate|].
      assert (p = x) by lia. subst p. destruct (cnt_pos x L C) as (e & He & Ep). exists e. split; [exact He|].
      pose proof (i_pos _ _ _ _ _ I e He) as Pz. unfold in_page. fold PG. rewrite <- Ep.
      pose proof (Z.mul_div_le (e_ptr e) PG eq_refl). pose proof (Z.mul_succ_div_gt (e_ptr e) PG eq_refl).
      set (d := e_ptr e / PG) in *. clearbody d. clear - H H0 Pz. unfold Z.succ, PG in *. split; lia.
  - intros (e & He & Hp). apply (page_in _ _ _ _ _ _ I He) in Hp as (x & m & k & Hu & Hb & _). exists x, m, k. auto.
Qed.

(* ---- histories ---- *)
Definition Data (L : list ent) (m : Z -> Z) : Prop := forall e o v, In e L -> 0 <= o < e_sz e -> e_val e o = Some v -> m (e_ptr e + o) = v.
Lemma data_keep : forall L m m', Data L m -> Keep L m m' -> Data L m'.
Proof. intros L m m' D K e o v He Ho Hv. rewrite (K e o He Ho). exact (D e o v He Ho Hv). Qed.
Record W (w : world) (U : list chunk) : Prop := mkWi {
  w_inv : Inv (w_st w) U (w_live w) None;
  w_ids : NoDup (map e_id (w_live w));
  w_lt : forall e, In e (w_live w) -> e_id e < w_next w;
  w_data : Data (w_live w) (q_mem (w_st w))
}.
Lemma odd_flag : forall f, has_flag f 1 = Z.odd f.
Proof.
  intros f. unfold has_flag. change 1 with (Z.ones 1) at 1. rewrite Z.land_ones by lia. change (2 ^ 1) with 2.
  rewrite Zmod_odd. destruct (Z.odd f); reflexivity.
Qed.
Lemma find_split : forall id L e, NoDup (map e_id L) -> find_ent id L = Some e ->
  e_id e = id /\ In e L /\ Permutation L (e :: del_ent id L).
Proof.
  intros id L e ND. unfold find_ent, del_ent. induction L as [|x L IH]; cbn [find filter]; [discriminate|].
  cbn [map] in ND. apply NoDup_cons_iff in ND as [Nx ND]. destruct (e_id x =? id) eqn:E.
  - intros Q. injection Q as ->. apply Z.eqb_eq in E. split; [exact E|]. split; [left; reflexivity|]. cbn [negb].
    replace (filter (fun e0 => negb (e_id e0 =? id)) L) with L; [apply Permutation_refl|].
    clear IH ND. induction L as [|y L IH]; [reflexivity|]. cbn [filter]. cbn [map In] in Nx.
    replace (e_id y =? id) with false by lia. cbn [negb]. rewrite <- IH by tauto. reflexivity.
  - intros Q. destruct (IH ND Q) as (H1 & H2 & H3). split; [exact H1|]. split; [right; exact H2|]. cbn [negb].
    eapply Permutation_trans; [apply perm_skip; exact H3 | apply perm_swap].
Qed.
Lemma inv_map : forall s U L h f, (forall e, e_ptr (f e) = e_ptr e /\ e_sz (f e) = e_sz e) -> Inv s U L h -> Inv s U (map f L) h.
Proof.
  intros s U L h f H I.
  assert (Ep : map e_ptr (map f L) = map e_ptr L) by (rewrite map_map; apply map_ext; intros; apply H).
  assert (Es : map e_sz (map f L) = map e_sz L) by (rewrite map_map; apply map_ext; intros; apply H).
  assert (Ec : forall p, cnt p (map f L) = cnt p L).
  { intros p. clear - H. induction L as [|x L IH]; [reflexivity|]. cbn [map]. rewrite !cnt_cons, IH, (proj1 (H x)). reflexivity. }
  assert (Ek : forall i, cntc i (map f L) = cntc i L).
  { intros i. clear - H. induction L as [|x L IH]; [reflexivity|]. cbn [map]. rewrite !cntc_cons, IH. unfold cls. rewrite (proj2 (H x)). reflexivity. }
  constructor.
  - exact (i_pool _ _ _ _ _ I).
  - exact (i_use _ _ _ _ _ I).
  - intros x n Hu. destruct (i_run _ _ _ _ _ I x n Hu) as (e & He & X). exists (f e). destruct (H e) as [-> ->]. split; [apply in_map; exact He | exact X].
  - intros e He Sl. apply in_map_iff in He as (e0 & <- & He). destruct (H e0) as [Q1 Q2]. rewrite Q1, Q2 in *. exact (i_multi _ _ _ _ _ I e0 He Sl).
  - intros p n i Hu. rewrite Ec. exact (i_slab _ _ _ _ _ I p n i Hu).
  - intros e He Sl. apply in_map_iff in He as (e0 & <- & He). destruct (H e0) as [Q1 Q2]. unfold cls. rewrite Q1, Q2 in *. exact (i_ent _ _ _ _ _ I e0 He Sl).
  - rewrite Ep. exact (i_nd _ _ _ _ _ I).
  - exact (i_lnd _ _ _ _ _ I).
  - intros i x Hi. rewrite Ep. exact (i_lin _ _ _ _ _ I i x Hi).
  - exact (i_nfree _ _ _ _ _ I).
  - intros i Hi. rewrite Ek. exact (i_nused _ _ _ _ _ I i Hi).
  - rewrite Es. exact (i_bytes _ _ _ _ _ I).
  - intros e He. apply in_map_iff in He as (e0 & <- & He). destruct (H e0) as [_ ->]. exact (i_pos _ _ _ _ _ I e0 He).
Qed.
Lemma ids_ne : forall e e' : ent, e_id e <> e_id e' -> e <> e'.
Proof. intros e e' H ->. contradiction. Qed.
Lemma ids_inj : forall L e e', NoDup (map e_id L) -> In e L -> In e' L -> e_id e = e_id e' -> e = e'.
Proof.
  induction L as [|a L IH]; intros e1 e2 ND H1 H2 E; [contradiction|]. cbn [map] in ND. apply NoDup_cons_iff in ND as [Hn ND'].
  destruct H1 as [->|H1], H2 as [->|H2]; [reflexivity | | | exact (IH _ _ ND' H1 H2 E)].
  - exfalso. apply Hn. rewrite E. apply in_map. exact H2.
  - exfalso. apply Hn. rewrite <- E. apply in_map. exact H1.
Qed.
Lemma step_ok : forall w U x, W w U -> legal x -> exists w' U', step c x w = Some w' /\ W w' U'.
Proof.
  intros w U x [I ND Lt D] Lg. destruct x as [n flags j|id flags j|id off v]; cbn [step].
  - cbn [legal] in Lg. destruct (malloc_ok c (w_st w) U (w_live w) (w_next w) n flags j I Lg) as [(s' & U' & p & E & I' & K & Zr)|[E _]].
    + rewrite E. eexists _, U'. split; [reflexivity|]. constructor; cbn [w_st w_live w_next].
      * replace (known flags) with (fun _ : Z => if has_flag flags 1 then Some 0 else None); [exact I'|].
        unfold known. rewrite odd_flag. reflexivity.
      * cbn [map e_id]. constructor; [|exact ND]. intros H. apply in_map_iff in H as (e & Ee & He). specialize (Lt e He). lia.
      * intros e [<-|He]; [cbn [e_id]; lia | specialize (Lt e He); lia].
      * intros e o v [<-|He] Ho Hv; [|exact (data_keep _ _ _ D K e o v He Ho Hv)].
        cbn [e_val e_ptr e_sz] in *. unfold known in Hv. rewrite <- odd_flag in Hv.
        destruct (has_flag flags 1); [|discriminate]. assert (v = 0) by congruence. subst v. exact (Zr eq_refl o Ho).
    + rewrite E. eexists _, U. split; [reflexivity|]. constructor; assumption.
  - destruct (find_ent id (w_live w)) as [e|] eqn:F; [|exists w, U; split; [reflexivity | constructor; assumption]].
    destruct (find_split _ _ _ ND F) as (Ei & He & P).
    pose proof (inv_perm c _ _ _ _ _ _ (Permutation_refl U) P I) as I1.
    destruct (free_ok c _ _ _ e flags j I1) as (s' & U' & E & I' & K). rewrite E. eexists _, U'. split; [reflexivity|].
    assert (Sub : forall e', In e' (del_ent id (w_live w)) -> In e' (w_live w)) by (intros e' H; apply filter_In in H; tauto).
    constructor; cbn [w_st w_live w_next].
    + exact I'.
    + pose proof (Permutation_NoDup (Permutation_map e_id P) ND) as ND'. cbn [map] in ND'. apply NoDup_cons_iff in ND'. tauto.
    + intros e' H. apply Lt. exact (Sub e' H).
    + apply (data_keep _ _ _) with (2 := K). intros e' o v H. exact (D e' o v (Sub e' H)).
  - destruct (find_ent id (w_live w)) as [e|] eqn:F; [|exists w, U; split; [reflexivity | constructor; assumption]].
    destruct ((0 <=? off) && (off <? e_sz e)) eqn:B; [|exists w, U; split; [reflexivity | constructor; assumption]].
    destruct (find_split _ _ _ ND F) as (Ei & He & P).
    assert (PV : forall x, e_ptr (put_val id off v x) = e_ptr x /\ e_sz (put_val id off v x) = e_sz x /\ e_id (put_val id off v x) = e_id x)
      by (intros x; unfold put_val; destruct (e_id x =? id); auto).
    eexists _, U. split; [reflexivity|]. constructor; cbn [w_st w_live w_next].
    + apply inv_map; [intros x; destruct (PV x) as (? & ? & _); auto|]. apply inv_mem. exact I.
    + replace (map e_id (map (put_val id off v) (w_live w))) with (map e_id (w_live w)); [exact ND|].
      rewrite map_map. apply map_ext. intros x. symmetry. apply PV.
    + intros x H. apply in_map_iff in H as (x0 & <- & H). destruct (PV x0) as (_ & _ & ->). exact (Lt x0 H).
    + intros x o v' H Ho Hv. apply in_map_iff in H as (x0 & <- & H). destruct (PV x0) as (Q1 & Q2 & _). rewrite Q1, Q2 in *.
      cbn [set_mem q_mem]. destruct (Z.eq_dec (e_id x0) id) as [Ex|Ex].
      * assert (x0 = e) by (apply (ids_inj (w_live w)); [exact ND | exact H | exact He | congruence]). subst x0.
        unfold put_val in Hv. rewrite Ei, Z.eqb_refl in Hv. cbn [e_val] in Hv. unfold fset in *.
        destruct (o =? off) eqn:Eo.
        -- apply Z.eqb_eq in Eo. subst o. rewrite Z.eqb_refl. congruence.
        -- replace (e_ptr e + o =? e_ptr e + off) with false by lia. exact (D e o v' He Ho Hv).
      * unfold put_val in Hv. replace (e_id x0 =? id) with false in Hv by lia.
        assert (Hne : x0 <> e) by (intros ->; contradiction).
        pose proof (live_disj _ _ _ _ _ _ _ I H He Hne) as Dj. unfold fset.
        replace (e_ptr x0 + o =? e_ptr e + off) with false by lia. exact (D x0 o v' H Ho Hv).
Qed.
Lemma run_ok : forall cs w U, W w U -> Forall legal cs -> exists w' U', run c cs w = Some w' /\ W w' U'.
Proof.
  induction cs as [|x cs IH]; intros w U H F; cbn [run]; [exists w, U; auto|].
  inversion F as [|? ? Fx Fr]; subst. destruct (step_ok w U x H Fx) as (w1 & U1 & -> & H1). exact (IH w1 U1 H1 Fr).
Qed.
Lemma init_ok : 0 < N -> W (w_init c) [].
Proof.
  intros HN. destruct (pool_init c HN) as (pg & l & E & P & _). constructor; unfold w_init; cbn [w_st w_live w_next].
  - rewrite E. constructor; cbn [q_pg q_list q_use q_slab q_bytes q_mem map]; try (intros; contradiction); try reflexivity.
    + exact P.
    + constructor.
    + intros; constructor.
    + intros i x Hi. cbn. tauto.
  - constructor.
  - intros e [].
  - intros e o v [].
Qed.
Lemma fine_of : forall w U, W w U -> fine c w.
Proof.
  intros w U [I ND Lt D]. destruct (pool_list _ _ _ (i_pool _ _ _ _ _ I)) as (L1 & L2 & L3).
  constructor.
  - exact ND.
  - intros e He. pose proof (i_pos _ _ _ _ _ I e He) as Pz. destruct (place _ _ _ _ _ _ I He) as (p & n & k & Hu & Ha & Hb & _).
    destruct (pool_in _ _ _ _ _ _ _ (i_pool _ _ _ _ _ I) Hu) as (P0 & _ & P1 & _). fold PG.
    assert (0 <= p * PG) by (apply Z.mul_nonneg_nonneg; [exact P0 | discriminate]).
    assert ((p + n) * PG <= N * PG) by (apply Z.mul_le_mono_nonneg_r; [discriminate | exact P1]). lia.
  - intros e He. pose proof (i_pos _ _ _ _ _ I e He) as Pz. destruct (is_slab (e_sz e)) eqn:Sl.
    + rewrite (class_slab _ Sl). exact (proj2 (i_ent _ _ _ _ _ I e He Sl)).
    + rewrite (proj2 (class_none _ (proj1 Pz)) Sl). exact (proj1 (i_multi _ _ _ _ _ I e He Sl)).
  - intros e e' He He' Hn. pose proof (live_disj _ _ _ _ _ _ _ I He He' (ids_ne _ _ Hn)) as Q. unfold apart. lia.
  - exact D.
  - intros p Hp. unfold run_of. rewrite (pool_cover _ _ _ _ _ (i_pool _ _ _ _ _ I) Hp), (used_page _ _ _ p I). split.
    + intros H e He Hin. apply H. exists e. auto.
    + intros H (e & He & Hin). exact (H e He Hin).
  - exact L1.
  - exact L2.
  - exact L3.
  - exact (i_bytes _ _ _ _ _ I).
Qed.
Lemma room_ok : forall w U n flags j, W w U -> 0 <= n ->
  ((exists w' e, step c (CMalloc n flags j) w = Some w' /\ w_live w' = e :: w_live w /\ e_sz e = n) <-> room N (w_live w) n) /\
  (~ room N (w_live w) n -> step c (CMalloc n flags j) w = Some w).
Proof.
  intros w U n flags j [I ND Lt D] Hn. cbn [step].
  destruct (malloc_ok c (w_st w) U (w_live w) (w_next w) n flags j I Hn) as [(s' & U' & p & E & I' & K & _)|[E F]]; rewrite E.
  - assert (R : room N (w_live w) n).
    { pose proof (i_pos _ _ _ _ _ I' _ (or_introl eq_refl)) as Pz. cbn [e_sz] in Pz. unfold room. split; [exact Pz|].
      destruct (place _ _ _ _ _ _ I' (or_introl eq_refl)) as (x & m & k & Hu & Ha & Hb & S1 & M1). cbn [e_ptr e_sz] in *.
      destruct (pool_in _ _ _ _ _ _ _ (i_pool _ _ _ _ _ I') Hu) as (P0 & _ & P1 & _).
      destruct (is_slab n) eqn:Sl.
      - rewrite (class_slab n Sl). destruct (S1 eq_refl) as (-> & Ex & ->). unfold cls in Hu. cbn [e_sz] in Hu.
        destruct (i_ent _ _ _ _ _ I' _ (or_introl eq_refl) Sl) as [_ Hm]. unfold cls in Hm. cbn [e_ptr e_sz] in Hm.
        destruct (sindex_facts n Sl) as [Hi Hle]. destruct (elem_facts _ Hi) as (_ & E16 & _).
        pose proof (elem_fits _ _ (elemsz (sindex_of n)) Hi Hm ltac:(lia)) as Fit. rewrite <- Ex in Fit.
        assert (Same : forall e, In e (w_live w) -> in_page e (p / PG) -> is_slab (e_sz e) = true /\ sindex_of (e_sz e) = sindex_of n).
        { intros e He Hp. apply (page_in _ _ _ _ _ _ I' (or_intror He)) in Hp as (y & m' & k' & Hu' & Hb' & H1 & H2).
          destruct (place _ _ _ _ _ _ I' (or_intror He)) as (y2 & m2 & k2 & Hu2 & Ha2 & Hb2 & S2 & M2).
          assert (Q2 : (x, 1, KSlab (sindex_of n)) = (y2, m2, k2)).
          { destruct (pool_disj _ _ _ _ _ _ _ _ _ _ (i_pool _ _ _ _ _ I') Hu Hu2) as [Q|Q]; [exact Q|]. exfalso. subst x.
            assert (y2 < p / PG + 1) by (apply (Z.mul_lt_mono_pos_r PG); [reflexivity | lia]).
            assert (p / PG < y2 + m2) by (apply (Z.mul_lt_mono_pos_r PG); [reflexivity | lia]). lia. }
          destruct (is_slab (e_sz e)); [|destruct (M2 eq_refl) as (_ & _ & K2); congruence].
          destruct (S2 eq_refl) as (_ & _ & K2). unfold cls in K2. split; [reflexivity | congruence]. }
        exists p. split; [unfold PG in *; lia|].
        split; [assert ((x + 1) * PG <= N * PG) by (apply Z.mul_le_mono_nonneg_r; [discriminate | exact P1]); unfold PG in *; lia|].
        split; [exact Hm|]. split.
        + intros e He. unfold apart. pose proof (i_pos _ _ _ _ _ I e He) as Pe.
          destruct (Z_le_dec (p + elemsz (sindex_of n)) (e_ptr e)) as [|B1]; [left; assumption|].
          destruct (Z_le_dec (e_ptr e + e_sz e) p) as [|B2]; [right; assumption|].
          assert (Hp : in_page e (p / PG)).
          { unfold in_page. fold PG. rewrite <- Ex. split; [lia|].  lia. }
          destruct (Same e He Hp) as [Sl' Ec].
          destruct (i_ent _ _ _ _ _ I e He Sl') as [_ Hm']. unfold cls in Hm'. rewrite Ec in Hm'.
          destruct (sindex_facts _ Sl') as [_ Hle']. rewrite Ec in Hle'.
          assert (Hne : e_ptr e <> p).
          { intros Q. pose proof (i_nd _ _ _ _ _ I') as NP. cbn [map e_ptr] in NP. apply NoDup_cons_iff in NP as [NP _].
            apply NP. rewrite <- Q. apply in_map. exact He. }
          destruct (mult_disj _ _ _ (ltac:(lia) : 0 < elemsz (sindex_of n)) Hm' Hm Hne); lia.
        + intros e He Hp. destruct (Same e He Hp) as [Sl' Ec]. rewrite (class_slab _ Sl'), Ec. reflexivity.
      - rewrite (proj2 (class_none n ltac:(lia)) Sl). destruct (M1 eq_refl) as (Ep & -> & ->).
        exists x. cbv zeta. rewrite npgs_eq. split; [exact P0|]. split; [exact P1|].
        intros e q He Hq Hp. apply (page_in _ _ _ _ _ _ I He) in Hp as (y & m' & k' & Hu' & Hb' & H1 & H2).
        destruct (place _ _ _ _ _ _ I' (or_intror He)) as (y2 & m2 & k2 & Hu2 & Ha2 & Hb2 & _).
        assert (y2 < q + 1) by (apply (Z.mul_lt_mono_pos_r PG); [reflexivity | lia]).
        assert (q < y2 + m2) by (apply (Z.mul_lt_mono_pos_r PG); [reflexivity | lia]).
        destruct (pool_disj _ _ _ _ _ _ _ _ _ _ (i_pool _ _ _ _ _ I') Hu Hu2) as [Q|Q]; [|lia].
        (* the same run: it has one owner *)
        pose proof (i_pos _ _ _ _ _ I e He) as Pe.
        assert (Hne : mkEnt (w_next w) p n (fun _ => if has_flag flags 1 then Some 0 else None) <> e) by (intros X; specialize (Lt e He); rewrite <- X in Lt; cbn in Lt; lia).
        destruct (place _ _ _ _ _ _ I' (or_intror He)) as (y3 & m3 & k3 & Hu3 & Ha3 & Hb3 & S3 & M3).
        assert (Q3 : (x, npgs_of n, KMulti) = (y3, m3, k3)).
        { destruct (pool_disj _ _ _ _ _ _ _ _ _ _ (i_pool _ _ _ _ _ I') Hu Hu3) as [Q3|Q3]; [exact Q3|]. exfalso.
          assert (y3 < q + 1) by (apply (Z.mul_lt_mono_pos_r PG); [reflexivity | lia]).
          assert (q < y3 + m3) by (apply (Z.mul_lt_mono_pos_r PG); [reflexivity | lia]). lia. }
        destruct (is_slab (e_sz e)); [destruct (S3 eq_refl) as (_ & _ & K3); congruence|].
        destruct (M3 eq_refl) as (E3 & _ & _). pose proof (live_disj _ _ _ _ _ _ _ I' (or_introl eq_refl) (or_intror He) Hne) as Dj.
        cbn [e_ptr e_sz] in Dj. assert (x = y3) by congruence. subst y3. lia. }
    split.
    + split; [intros _; exact R|]. intros _. eexists _, _. split; [reflexivity|]. cbn [w_live]. split; reflexivity.
    + intros H. contradiction.
  - assert (NR : ~ room N (w_live w) n).
    { intros [Rn R]. destruct F as [F|[F|[[Sl F]|(Sl & F & Em)]]]; [lia | unfold MALLOC_MAX in F; lia | |].
      - rewrite (proj2 (class_none n (proj1 Rn)) Sl) in R. destruct R as (a & R1 & R2 & R3). apply F.
        cbv zeta in R2, R3. rewrite npgs_eq in R2, R3. exists a. split; [exact R1|]. split; [exact R2|].
        intros p Hp Hu. apply (used_page _ _ _ p I) in Hu as (e & He & Hin). exact (R3 e p He Hp Hin).
      - rewrite (class_slab n Sl) in R. destruct (sindex_facts n Sl) as [Hi Hle]. destruct (elem_facts _ Hi) as (_ & E16 & _).
        destruct R as (a & R1 & R2 & R3 & R4 & R5). fold PG in R2, R5.
        assert (Ha : 0 <= a / PG < N) by (split; [apply Z.div_pos; [lia | reflexivity] | apply Z.div_lt_upper_bound; [reflexivity | lia]]).
        apply F. exists (a / PG). split; [lia|]. split; [lia|]. intros p Hp (x & m & k & Hu & Hb).
        assert (p = a / PG) by lia. subst p. clear Hp.
        pose proof (proj1 (used_page _ _ _ (a / PG) I) ltac:(exists x, m, k; auto)) as (e & He & Hin).
        pose proof (R5 e He Hin) as Ce.
        assert (Sl' : is_slab (e_sz e) = true).
        { destruct (is_slab (e_sz e)) eqn:Q; [reflexivity|]. pose proof (i_pos _ _ _ _ _ I e He) as Pe.
          rewrite (proj2 (class_none _ (proj1 Pe)) Q) in Ce. discriminate. }
        rewrite (class_slab _ Sl') in Ce. destruct (sindex_facts _ Sl') as [Hi' Hle'].
        assert (Ei : sindex_of (e_sz e) = sindex_of n) by (apply elemsz_inj; [exact Hi' | exact Hi | congruence]).
        destruct (place _ _ _ _ _ _ I He) as (y & m2 & k2 & Hu2 & Ha2 & Hb2 & S2 & _). destruct (S2 Sl') as (-> & -> & ->).
        assert (Ey : e_ptr e / PG = a / PG).
        { unfold in_page in Hin. fold PG in Hin. assert (e_ptr e / PG < a / PG + 1) by (apply (Z.mul_lt_mono_pos_r PG); [reflexivity | lia]).
          assert (a / PG < e_ptr e / PG + 1) by (apply (Z.mul_lt_mono_pos_r PG); [reflexivity | lia]). lia. }
        unfold cls in Hu2. rewrite Ei, Ey in Hu2.
        assert (InL : In a (sl_list (q_slab (w_st w) (sindex_of n)))).
        { apply (i_lin _ _ _ _ _ I _ a Hi). split; [exact Hu2|]. split; [exact R3|]. intros H.
          apply in_map_iff in H as (e' & Ee & He'). pose proof (R4 e' He') as Ap. pose proof (i_pos _ _ _ _ _ I e' He'). unfold apart in Ap. lia. }
        rewrite Em in InL. contradiction. }
    split.
    + split; [|intros H; contradiction]. intros (w' & e & H1 & H2 & _). exfalso.
      assert (w_live w' = w_live w) by (injection H1 as <-; reflexivity). rewrite H in H2. apply (f_equal (@length ent)) in H2. cbn [length] in H2. lia.
    + intros _. destruct w; reflexivity.
Qed.

Lemma bind_bad : forall A B (m : Q A) (f : A -> Q B) s s', m s = (s', RBad) -> qbind m f s = (s', RBad).
Proof. intros A B m f s s' H. unfold qbind. rewrite H. reflexivity. Qed.
(* an element freed twice *)
Lemma refree_bad : forall s U L a n flags j, Inv s U L None -> is_slab n = true -> In (a / PG, 1, KSlab (sindex_of n)) U ->
  a mod elemsz (sindex_of n) = 0 -> ~ In a (map e_ptr L) -> exists s', qfree c a n flags j s = (s', RBad).
Proof.
  intros s U L a n flags j I Sl Hu Hm Hn. destruct (sindex_facts _ Sl) as [Hi Hle]. pose proof (slab_range _ Sl) as R. unfold SLAB_MAX in R.
  destruct (pool_in _ _ _ _ _ _ _ (i_pool _ _ _ _ _ I) Hu) as (P0 & _ & P1 & _).
  destruct (i_slab _ _ _ _ _ I _ _ _ Hu) as (_ & _ & A3 & A4 & A5 & [A6|A6]); [discriminate|].
  pose proof (elem_fits _ _ n Hi Hm Hle) as Fit.
  pose proof (Z.mul_div_le a PG eq_refl) as Lo. rewrite Z.mul_comm in Lo.
  assert (B0 : 0 <= a / PG * PG) by (apply Z.mul_nonneg_nonneg; [exact P0 | discriminate]).
  assert (B1 : (a / PG + 1) * PG <= N * PG) by (apply Z.mul_le_mono_nonneg_r; [discriminate | exact P1]).
  assert (Ck : check_free c a n s = (s, ROk tt)).
  { unfold check_free. replace ((n =? 0) || (MALLOC_MAX <? n)) with false by (unfold MALLOC_MAX; lia).
    replace ((0 <=? a) && (a + n <=? N * PG)) with true by lia. reflexivity. }
  unfold qfree, do_free. replace (n =? 0) with false by lia.
  rewrite (bind_ok _ _ _ _ _ s tt Ck). rewrite (bind_ok _ _ qget _ s s s) by reflexivity.
  match goal with |- context [qput ?x] => set (s1 := x) end.
  rewrite (bind_ok _ _ (qput s1) _ s s1 tt) by reflexivity.
  assert (S1 : q_pg s1 = q_pg s /\ q_slab s1 = q_slab s).
  { unfold s1. destruct (negb (flags =? 0)); [destruct (has_flag flags 1) | destruct (c_demask c)]; split; reflexivity. }
  clearbody s1. destruct S1 as [Sg Ss]. rewrite Sl.
  destruct (elem_facts _ Hi) as (_ & E16 & Em & _).
  assert (Ea : a / SEG * SEG = a).
  { unfold SEG. apply Z.div_exact in Hm; [|lia]. apply Z.div_exact in Em; [|lia].
    rewrite Hm at 1. rewrite Em at 1. rewrite <- !Z.mul_assoc, (Z.mul_comm 16), Z.div_mul by lia. lia. }
  assert (Nu : 0 < sl_nused (q_slab s (sindex_of n))).
  { clear - I Hi Hu A6. rewrite (i_nused _ _ _ _ _ I _ Hi). destruct (cnt_pos _ _ A6) as (e & He & Ep).
    destruct (place _ _ _ _ _ _ I He) as (x & m & k & Hu' & Ha & Hb & S2 & M2). pose proof (i_pos _ _ _ _ _ I e He).
    assert (Q : (a / PG, 1, KSlab (sindex_of n)) = (x, m, k)).
    { destruct (pool_disj _ _ _ _ _ _ _ _ _ _ (i_pool _ _ _ _ _ I) Hu Hu') as [Q|Q]; [exact Q|]. exfalso. rewrite <- Ep in Q.
      assert (x <= e_ptr e / PG) by (apply Z.div_le_lower_bound; [reflexivity | lia]).
      assert (e_ptr e / PG < x + m) by (apply Z.div_lt_upper_bound; [reflexivity | lia]). lia. }
    destruct (is_slab (e_sz e)) eqn:Sl'; [|destruct (M2 eq_refl) as (_ & _ & K2); congruence].
    destruct (S2 eq_refl) as (_ & _ & K2). assert (Kc : cls e = sindex_of n) by congruence.
    apply in_split in He as (L1 & L2 & ->). rewrite cntc_app, cntc_cons, Sl', Kc, Z.eqb_refl. cbn [andb].
    pose proof (cntc_nonneg (sindex_of n) L1). pose proof (cntc_nonneg (sindex_of n) L2). lia. }
  assert (InL : In a (sl_list (q_slab s (sindex_of n)))) by (apply (i_lin _ _ _ _ _ I _ _ Hi); auto).
  assert (Run : (i <- slab_of n ;; (let a := a / SEG * SEG in slab_check c i a n ;;; slab_free_upd c i a flags j)) s1 = (s1, RBad)).
  { rewrite (bind_ok _ _ _ _ _ s1 (sindex_of n)).
    2:{ unfold slab_of. rewrite (bind_ok _ _ _ _ _ s1 tt); [reflexivity|]. apply assert_ok. unfold SIDX_NONE. lia. }
    cbv zeta. rewrite Ea. rewrite (bind_ok _ _ _ _ _ s1 tt).
    2:{ unfold slab_check. rewrite (bind_ok _ _ qget _ s1 s1 s1) by reflexivity. rewrite Ss.
        replace (sl_nused (q_slab s (sindex_of n)) =? 0) with false by lia. replace (elemsz (sindex_of n) <? n) with false by lia.
        replace (2 * elemsz (sindex_of n) <=? n) with false by lia. rewrite (bind_ok _ _ _ _ _ s1 (a / PG)) by (apply page_of_ok; lia).
        rewrite Sg, A3, A5, Z.eqb_refl. cbn [negb]. replace (cnt (a / PG) L =? 0) with false by lia. reflexivity. }
    unfold slab_free_upd. rewrite (bind_ok _ _ _ _ _ s1 (a / PG)) by (apply page_of_ok; lia).
    rewrite (bind_ok _ _ qget _ s1 s1 s1) by reflexivity.
    rewrite (bind_ok _ _ _ _ _ s1 tt) by (apply assert_ok; rewrite Sg, A3; apply Z.eqb_refl).
    unfold qbind at 1. unfold slab_free. rewrite Ss. apply mem_z_in in InL. rewrite InL. reflexivity. }
  rewrite (bind_bad _ _ _ _ _ s1 Run). eexists. reflexivity.
Qed.
Lemma del_shape : forall id L e, In e (del_ent id L) <-> In e L /\ e_id e <> id.
Proof. intros id L e. unfold del_ent. rewrite filter_In. split; intros [H1 H2]; (split; [exact H1|]); lia. Qed.
Lemma double_free : forall w U e e' flags j w', W w U -> In e (w_live w) -> In e' (w_live w) -> e_id e <> e_id e' -> e_sz e <= 32768 ->
  in_page e' (e_ptr e / 65536) -> step c (CFree (e_id e) flags j) w = Some w' ->
  forall flags' j', exists s', qfree c (e_ptr e) (e_sz e) flags' j' (w_st w') = (s', RBad).
Proof.
  intros w U e e' flags j w' [I ND Lt D] He He' Hne Sz Hp St flags' j'. pose proof (i_pos _ _ _ _ _ I e He) as Pz.
  assert (Sl : is_slab (e_sz e) = true) by (unfold is_slab, SLAB_MAX; lia).
  destruct (step_ok w U (CFree (e_id e) flags j) (mkWi w U I ND Lt D) Logic.I) as (w2 & U2 & St2 & [I2 ND2 Lt2 D2]).
  assert (w2 = w') by congruence. subst w2.
  assert (Lv : w_live w' = del_ent (e_id e) (w_live w)).
  { cbn [step] in St. destruct (find_ent (e_id e) (w_live w)) as [e0|] eqn:F.
    - destruct (qfree c (e_ptr e0) (e_sz e0) flags j (w_st w)) as [s1 [r| | |]]; try discriminate. injection St as <-. reflexivity.
    - exfalso. unfold find_ent in F. pose proof (find_none _ _ F e He) as Q. cbv beta in Q. lia. }
  destruct (i_ent _ _ _ _ _ I e He Sl) as [Hu Hm]. fold PG in Hp.
  (* e' is of the same class *)
  destruct (place _ _ _ _ _ _ I He') as (x & m & k & Hu' & Ha & Hb & S2 & M2). pose proof (i_pos _ _ _ _ _ I e' He') as Pz'.
  unfold in_page in Hp. fold PG in Hp.
  assert (X1 : x < e_ptr e / PG + 1) by (apply (Z.mul_lt_mono_pos_r PG); [reflexivity | lia]).
  assert (X2 : e_ptr e / PG < x + m) by (apply (Z.mul_lt_mono_pos_r PG); [reflexivity | lia]).
  assert (Q : (e_ptr e / PG, 1, KSlab (cls e)) = (x, m, k)).
  { destruct (pool_disj _ _ _ _ _ _ _ _ _ _ (i_pool _ _ _ _ _ I) Hu Hu') as [Q|Q]; [exact Q | lia]. }
  destruct (is_slab (e_sz e')) eqn:Sl'; [|destruct (M2 eq_refl) as (_ & _ & K2); congruence].
  destruct (S2 eq_refl) as (_ & Ex & K2). assert (Kc : cls e' = cls e) by congruence. assert (Px : e_ptr e' / PG = e_ptr e / PG) by congruence.
  assert (He2 : In e' (w_live w')) by (rewrite Lv; apply del_shape; auto).
  destruct (i_ent _ _ _ _ _ I2 e' He2 Sl') as [Hu2 _]. rewrite Px, Kc in Hu2.
  refine (refree_bad (w_st w') U2 (w_live w') (e_ptr e) (e_sz e) flags' j' I2 Sl Hu2 Hm _).
  intros H. apply in_map_iff in H as (e2 & E2 & H2). rewrite Lv in H2. apply del_shape in H2 as [H2 N2].
  apply N2. f_equal. exact (ptr_inj _ _ _ (i_nd _ _ _ _ _ I) H2 He E2).
Qed.
End Props.

(* ---- C29 ---- *)

(* a pool as silofs_qalloc_init makes it, and any history of calls *)
Definition from_start (memsize : Z) (nofail demask : bool) (cs : list call) (c : qconf) (w : world) : Prop :=
  conf_of memsize nofail demask = Some c /\ Forall legal cs /\ run c cs (w_init c) = Some w.
Lemma conf_pos : forall memsize a b c, conf_of memsize a b = Some c -> 128 <= c_npgs c.
Proof.
  intros memsize a b c. unfold conf_of. destruct ((memsize <? 8 * 1048576) || (64 * 1073741824 <? memsize)) eqn:E; [discriminate|].
  intros H. injection H as <-. cbn [c_npgs]. unfold PG. apply Z.div_le_lower_bound; lia.
Qed.
Lemma start_ok : forall memsize a b cs c, conf_of memsize a b = Some c -> Forall legal cs -> exists w U, run c cs (w_init c) = Some w /\ W c w U.
Proof. intros memsize a b cs c H F. pose proof (conf_pos _ _ _ _ H). apply (run_ok c cs _ []); [apply init_ok; lia | exact F]. Qed.

(* Any history of allocations, releases and writes runs to its end, without an error; the live
   allocations are in the pool, aligned to their size class, pairwise apart, and hold the bytes their
   owners have put there; the free list describes exactly the pages without a live byte, each run once,
   with no two runs next to each other; and the count of bytes in use is their sum. *)
Theorem C29_history : forall memsize nofail demask c cs, conf_of memsize nofail demask = Some c -> Forall legal cs ->
  exists w, run c cs (w_init c) = Some w /\ fine c w.
Proof.
  intros memsize nofail demask c cs H F. destruct (start_ok _ _ _ cs c H F) as (w & U & E & Hw). exists w. split; [exact E|].
  exact (fine_of c w U Hw).
Qed.
(* An allocation succeeds exactly when there is room for it; otherwise nothing changes. *)
Theorem C29_room : forall memsize nofail demask cs c w n flags j, from_start memsize nofail demask cs c w -> 0 <= n ->
  ((exists w' e, step c (CMalloc n flags j) w = Some w' /\ w_live w' = e :: w_live w /\ e_sz e = n) <-> room (c_npgs c) (w_live w) n) /\
  (~ room (c_npgs c) (w_live w) n -> step c (CMalloc n flags j) w = Some w).
Proof.
  intros memsize nofail demask cs c w n flags j (H & F & E) Hn. destruct (start_ok _ _ _ cs c H F) as (w' & U & E' & Hw).
  assert (w' = w) by congruence. subst w'. exact (room_ok c w U n flags j Hw Hn).
Qed.
(* Once all is freed the pool is a single run again. *)
Theorem C29_reuse : forall memsize nofail demask cs c w, from_start memsize nofail demask cs c w -> w_live w = [] ->
  q_list (w_st w) = [0] /\ run_of (w_st w) 0 = c_npgs c /\ q_bytes (w_st w) = 0.
Proof.
  intros memsize nofail demask cs c w (H & F & E) L0. destruct (C29_history memsize nofail demask c cs H F) as (w' & E' & Hw).
  assert (w' = w) by congruence. subst w'. pose proof (conf_pos _ _ _ _ H) as HN. destruct Hw as [_ _ _ _ _ Ff Fo Fb Fs Fy]. rewrite L0 in *.
  destruct (proj2 (Ff 0 ltac:(lia))) as (x & Hx & Bx); [intros e []|]. destruct (Fb x Hx) as (X0 & X1 & X2). assert (x = 0) by lia. subst x.
  assert (Rn : run_of (w_st w) 0 = c_npgs c).
  { destruct (Z.eq_dec (run_of (w_st w) 0) (c_npgs c)) as [Q|Q]; [exact Q|]. exfalso.
    destruct (proj2 (Ff (run_of (w_st w) 0) ltac:(lia))) as (y & Hy & By); [intros e []|].
    destruct (Z.eq_dec 0 y) as [<-|Ny]; [lia|]. destruct (Fb y Hy). destruct (Fs 0 y Hx Hy Ny); lia. }
  split; [|split; [exact Rn | rewrite Fy; reflexivity]].
  assert (All : forall y, In y (q_list (w_st w)) -> y = 0).
  { intros y Hy. destruct (Z.eq_dec 0 y) as [<-|Ny]; [reflexivity|]. destruct (Fb y Hy) as (Y0 & Y1 & Y2). destruct (Fs 0 y Hx Hy Ny); lia. }
  destruct (q_list (w_st w)) as [|a [|b l]]; [contradiction | f_equal; apply All; left; reflexivity|].
  exfalso. apply NoDup_cons_iff in Fo as [Fo _]. apply Fo. left. rewrite (All a), (All b); cbn [In]; auto.
Qed.
(* The checks of the calls do not find every wrong release, not even when each error found is a panic:
   after any history, freeing an element twice while another allocation lives in its page breaks the
   list of the slab. *)
Theorem C29_double_free_breaks : forall memsize nofail demask cs c w e e' flags j w', from_start memsize nofail demask cs c w ->
  In e (w_live w) -> In e' (w_live w) -> e_id e <> e_id e' -> e_sz e <= 32768 -> in_page e' (e_ptr e / 65536) ->
  step c (CFree (e_id e) flags j) w = Some w' -> forall flags' j', snd (qfree c (e_ptr e) (e_sz e) flags' j' (w_st w')) = RBad.
Proof.
  intros memsize nofail demask cs c w e e' flags j w' (H & F & E) He He' Hne Sz Hp St flags' j'.
  destruct (start_ok _ _ _ cs c H F) as (w0 & U & E' & Hw). assert (w0 = w) by congruence. subst w0.
  destruct (double_free c w U e e' flags j w' Hw He He' Hne Sz Hp St flags' j') as [s' ->]. reflexivity.
Qed.
Definition j0 : Z -> Z := fun x => x mod 251.
Definition MB := 1048576.
(* the full claim: a release of what is not live is found *)
Definition wrong_free_found (nofail : bool) : Prop := forall memsize demask cs c w ptr n flags j, from_start memsize nofail demask cs c w ->
  ~ (exists e, In e (w_live w) /\ e_ptr e = ptr /\ e_sz e = n) -> 0 < n -> 0 <= ptr -> snd (qfree c ptr n flags j (w_st w)) <> RBad.
Theorem C29_wrong_free_refuted : ~ wrong_free_found true.
Proof.
  intros H. set (cs := [CMalloc 20000 0 j0; CMalloc 20000 0 j0; CFree 0 0 j0]).
  assert (F : Forall legal cs) by (repeat constructor; cbn; lia).
  destruct (conf_of (8 * MB) true false) as [c|] eqn:Ec; [|discriminate].
  destruct (start_ok _ _ _ cs c Ec F) as (w & U & E & Hw).
  assert (Ec' : c = mkConf 128 true false) by (cbv in Ec; congruence).
  assert (Lv : map (fun e => (e_id e, e_ptr e, e_sz e)) (w_live w) = [(1, 32768, 20000)]).
  { replace (w_live w) with (match run c cs (w_init c) with Some x => w_live x | None => [] end) by (rewrite E; reflexivity). subst c. vm_compute. reflexivity. }
  refine (H (8 * MB) false cs c w 0 20000 0 j0 (conj Ec (conj F E)) _ _ _ _); try lia.
  - intros (e & He & Ep & _). apply (in_map (fun e => (e_id e, e_ptr e, e_sz e))) in He. rewrite Lv, Ep in He. destruct He as [He|[]]. congruence.
  - replace (w_st w) with (match run c cs (w_init c) with Some x => w_st x | None => q_init c end) by (rewrite E; reflexivity). subst c. vm_compute. reflexivity.
Qed.
(* when errors are only logged, a block of pages freed twice breaks the list of free runs as well: its
   check reports the error and goes on *)
Theorem C29_logged_double_free_refuted : ~ wrong_free_found false /\
  exists cs c w, from_start (8 * MB) false false cs c w /\ w_live w <> [] /\ snd (qfree c 0 200000 0 j0 (w_st w)) = RBad.
Proof.
  assert (Ex : exists cs c w, from_start (8 * MB) false false cs c w /\ w_live w <> [] /\ snd (qfree c 0 200000 0 j0 (w_st w)) = RBad /\
     ~ exists e, In e (w_live w) /\ e_ptr e = 0 /\ e_sz e = 200000).
  { set (cs := [CMalloc 200000 0 j0; CMalloc 300000 0 j0; CFree 0 0 j0]).
    assert (F : Forall legal cs) by (repeat constructor; cbn; lia).
    destruct (conf_of (8 * MB) false false) as [c|] eqn:Ec; [|discriminate].
    destruct (start_ok _ _ _ cs c Ec F) as (w & U & E & Hw).
    assert (Ec' : c = mkConf 128 false false) by (cbv in Ec; congruence).
    assert (Lv : map (fun e => (e_id e, e_ptr e, e_sz e)) (w_live w) = [(1, 262144, 300000)]).
    { replace (w_live w) with (match run c cs (w_init c) with Some x => w_live x | None => [] end) by (rewrite E; reflexivity). subst c. vm_compute. reflexivity. }
    exists cs, c, w. split; [split; [exact Ec | split; [exact F | exact E]]|]. split; [intros Q; rewrite Q in Lv; discriminate|].
    split.
    - replace (w_st w) with (match run c cs (w_init c) with Some x => w_st x | None => q_init c end) by (rewrite E; reflexivity). subst c. vm_compute. reflexivity.
    - intros (e & He & Ep & Es). apply (in_map (fun e => (e_id e, e_ptr e, e_sz e))) in He. rewrite Lv, Ep, Es in He. destruct He as [He|[]]. congruence. }
  destruct Ex as (cs & c & w & S & Lv & B & Nl). split.
  - intros H. exact (H (8 * MB) false cs c w 0 200000 0 j0 S Nl ltac:(lia) ltac:(lia) B).
  - exists cs, c, w. auto.
Qed.

(* two elements, two blocks, writes, a release, and the released space used again *)
Definition ex_calls : list call :=
  [CMalloc 20000 1 j0; CMalloc 30000 0 j0; CMalloc 100000 1 j0; CMalloc 70000 0 j0;
   CWrite 0 5 77; CWrite 2 99999 33; CFree 1 0 j0; CMalloc 32768 0 j0; CWrite 4 0 9; CFree 2 2 j0; CMalloc 131073 0 j0].
Example ex_history : conf_of (8 * MB) true true = Some (mkConf 128 true true) /\ Forall legal ex_calls /\
  match run (mkConf 128 true true) ex_calls (w_init (mkConf 128 true true)) with
  | Some w => (map (fun e => (e_id e, e_ptr e, e_sz e)) (w_live w), q_list (w_st w), map (run_of (w_st w)) (q_list (w_st w)), q_bytes (w_st w),
               map (q_mem (w_st w)) [5; 6; 32768]) =
              ([(5, 327680, 131073); (4, 32768, 32768); (3, 196608, 70000); (0, 0, 20000)], [8; 1], [120; 2], 253841, [77; 0; 9])
  | None => False
  end.
Proof. split; [reflexivity|]. split; [repeat constructor; cbn; lia|]. vm_compute. reflexivity. Qed.
(* no room: a request for more than a free run has, and one for more than is allowed *)
Example ex_no_room : ~ room 128 [mkEnt 0 4194304 65536 (fun _ => None)] 5000000 /\ room 128 [mkEnt 0 4194304 65536 (fun _ => None)] 3000000.
Proof.
  split.
  - intros [_ H]. cbn in H. destruct H as (p & H1 & H2 & H3). change ((5000000 + 65535) / 65536) with 77 in *.
    apply (H3 _ 64 (or_introl eq_refl)); [lia|]. unfold in_page. cbn. lia.
  - split; [lia|]. cbn. exists 65. change ((3000000 + 65535) / 65536) with 46. split; [lia|]. split; [lia|].
    intros e q [<-|[]] Hq. unfold in_page. cbn [e_ptr e_sz]. lia.
Qed.
Example ex_double : exists w w', run (mkConf 128 true false) [CMalloc 20000 0 j0; CMalloc 30000 0 j0] (w_init (mkConf 128 true false)) = Some w /\
  map (fun e => (e_id e, e_ptr e)) (w_live w) = [(1, 32768); (0, 0)] /\ step (mkConf 128 true false) (CFree 0 0 j0) w = Some w'.
Proof.
  assert (F : Forall legal [CMalloc 20000 0 j0; CMalloc 30000 0 j0]) by (repeat constructor; cbn; lia).
  destruct (start_ok (8 * MB) true false _ (mkConf 128 true false) eq_refl F) as (w & U & E & Hw).
  destruct (step_ok _ _ _ (CFree 0 0 j0) Hw Logic.I) as (w' & U' & E' & _). exists w, w'. split; [exact E|]. split; [|exact E'].
  replace (w_live w) with (match run (mkConf 128 true false) [CMalloc 20000 0 j0; CMalloc 30000 0 j0] (w_init (mkConf 128 true false)) with Some x => w_live x | None => [] end) by (rewrite E; reflexivity).
  vm_compute. reflexivity.
Qed.
Print Assumptions C29_history.
Print Assumptions C29_room.
Print Assumptions C29_reuse.
Print Assumptions C29_double_free_breaks.
Print Assumptions C29_wrong_free_refuted.
Print Assumptions C29_logged_double_free_refuted.
