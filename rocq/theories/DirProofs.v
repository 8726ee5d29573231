(* Invariant of the directory tree and its preservation. *)
From Verif Require Import Base DirNodeModel DirNodeProofs DirModel.

(* ---- index arithmetic ---- *)
Lemma parent_pos : forall i, 2 <= i -> 1 <= index_to_parent i < i.
Proof. intros. unfold index_to_parent. destruct (Z.eqb_spec i 1); lia. Qed.
Lemma ord_range : forall i, 2 <= i -> 0 <= index_to_child_ord i < 64.
Proof. intros. unfold index_to_child_ord, index_to_parent. destruct (Z.eqb_spec i 1); lia. Qed.
Lemma child_of_parent : forall i, 2 <= i -> child_index_of (index_to_parent i) (index_to_child_ord i) = i.
Proof. intros. unfold child_index_of, index_to_child_ord. lia. Qed.
Lemma parent_of_child : forall p o, 1 <= p -> 0 <= o < 64 -> index_to_parent (child_index_of p o) = p.
Proof.
  intros. unfold index_to_parent, child_index_of. destruct (Z.eqb_spec ((p - 1) * 64 + o + 2) 1); lia.
Qed.
Lemma ord_of_child : forall p o, 1 <= p -> 0 <= o < 64 -> index_to_child_ord (child_index_of p o) = o.
Proof.
  intros. unfold index_to_child_ord. rewrite parent_of_child by auto. unfold child_index_of. lia.
Qed.
Lemma child_ge2 : forall p o, 1 <= p -> 0 <= o < 64 -> 2 <= child_index_of p o.
Proof. intros. unfold child_index_of. lia. Qed.
Lemma child_inj : forall p o q r, 1 <= p -> 0 <= o < 64 -> 1 <= q -> 0 <= r < 64 ->
  child_index_of p o = child_index_of q r -> p = q /\ o = r.
Proof. intros. unfold child_index_of in *. lia. Qed.

Lemma depth_loop_fuel : forall k j i, i <= 64 ^ Z.of_nat k ->
  index_depth_loop (k + j) i = index_depth_loop k i.
Proof.
  induction k as [|k IH]; intros j i H.
  - cbn [Nat.add]. change (64 ^ Z.of_nat 0) with 1 in H. destruct j; cbn [index_depth_loop]; auto.
    destruct (Z.ltb_spec 1 i); [lia|reflexivity].
  - cbn [Nat.add index_depth_loop]. destruct (Z.ltb_spec 1 i); [|reflexivity]. f_equal. apply IH.
    rewrite Nat2Z.inj_succ, Z.pow_succ_r in H by lia.
    unfold index_to_parent. destruct (Z.eqb_spec i 1); lia.
Qed.
Lemma depth_loop_S : forall k i, index_depth_loop (S k) i = if 1 <? i then 1 + index_depth_loop k (index_to_parent i) else 0.
Proof. reflexivity. Qed.
Lemma depth_parent : forall i, 2 <= i <= 2 ^ 66 -> index_depth i = 1 + index_depth (index_to_parent i).
Proof.
  intros i H. unfold index_depth. rewrite depth_loop_S.
  destruct (Z.ltb_spec 1 i); [|lia]. f_equal. symmetry. change 12%nat with (11 + 1)%nat.
  apply depth_loop_fuel. pose proof (parent_pos i). change (64 ^ Z.of_nat 11) with (2 ^ 66). lia.
Qed.
Lemma depth_one : forall i, i <= 1 -> index_depth i = 0.
Proof. intros. unfold index_depth. rewrite depth_loop_S. destruct (Z.ltb_spec 1 i); lia. Qed.
Lemma depth_nonneg : forall i, 0 <= index_depth i.
Proof.
  intros. unfold index_depth. generalize 12%nat. intros k. revert i.
  induction k; intros; cbn [index_depth_loop]; [lia|]. destruct (1 <? i); [|lia]. specialize (IHk (index_to_parent i)). lia.
Qed.
Lemma depth_child : forall p o, 1 <= p <= 2 ^ 40 -> 0 <= o < 64 ->
  index_depth (child_index_of p o) = index_depth p + 1.
Proof.
  intros. rewrite depth_parent; [rewrite parent_of_child by lia; lia|]. unfold child_index_of. lia.
Qed.
Lemma depth_le0 : forall i, i <= 2 ^ 66 -> index_depth i <= 0 <-> i <= 1.
Proof.
  intros i H. destruct (Z.leb_spec i 1); [rewrite depth_one by lia; lia|].
  rewrite depth_parent by lia. pose proof (depth_nonneg (index_to_parent i)). lia.
Qed.
Lemma depth_le_step : forall d b, (forall i, i <= 2 ^ 66 -> index_depth i <= d <-> i <= b) -> 1 <= b -> 0 <= d ->
  forall i, i <= 2 ^ 66 -> index_depth i <= d + 1 <-> i <= b * 64 + 1.
Proof.
  intros d b Hd Hb Hd0 i Hi. destruct (Z.leb_spec i 1); [rewrite depth_one by lia; lia|].
  rewrite depth_parent by lia. pose proof (parent_pos i). specialize (Hd (index_to_parent i)).
  assert (index_to_parent i <= b <-> i <= b * 64 + 1).
  { unfold index_to_parent. destruct (Z.eqb_spec i 1); lia. }
  lia.
Qed.
(* the shallow part of the tree is exactly the indices up to 266305 *)
Lemma depth_le3 : forall i, i <= 2 ^ 66 -> index_depth i <= 3 <-> i <= 266305.
Proof.
  intros i Hi.
  pose proof (depth_le_step 0 1 depth_le0 ltac:(lia) ltac:(lia)) as D1.
  pose proof (depth_le_step 1 65 D1 ltac:(lia) ltac:(lia)) as D2.
  pose proof (depth_le_step 2 4161 D2 ltac:(lia) ltac:(lia) i Hi) as D3. lia.
Qed.
Lemma depth_le4 : forall i, i <= DTREE_INDEX_MAX -> index_depth i <= 4.
Proof.
  unfold DTREE_INDEX_MAX. intros i Hi.
  pose proof (depth_le_step 3 266305 depth_le3 ltac:(lia) ltac:(lia) i ltac:(lia)) as D. lia.
Qed.

(* ---- the path of a hash through the tree ---- *)
Definition hord (h : Z) (d : nat) : Z := Z.shiftr (u64 h) (6 * Z.of_nat d) mod 64.
Fixpoint pidx (h : Z) (d : nat) : Z :=
  match d with
  | O => 1
  | S k => child_index_of (pidx h k) (hord h k)
  end.
Lemma hord_range : forall h d, 0 <= hord h d < 64.
Proof. intros. unfold hord. apply Z.mod_pos_bound. lia. Qed.
Lemma hash_ord_eq : forall h d, (d <= 3)%nat -> hash_to_child_ord h (Z.of_nat d + 1) = Some (hord h d).
Proof.
  intros h d H. unfold hash_to_child_ord, hord, DTREE_DEPTH_MAX.
  replace ((0 <? Z.of_nat d + 1) && (Z.of_nat d + 1 <? 8) && (Z.of_nat d + 1 <=? 4)) with true by lia.
  do 3 f_equal. lia.
Qed.
Lemma hash_ord_deep : forall h, hash_to_child_ord h (Z.of_nat 4 + 1) = None.
Proof. reflexivity. Qed.
Lemma pidx_bound : forall h d, 1 <= pidx h d <= 2 * 64 ^ Z.of_nat d - 1.
Proof.
  induction d; cbn [pidx]; [cbn; lia|]. rewrite Nat2Z.inj_succ, Z.pow_succ_r by lia.
  pose proof (hord_range h d). unfold child_index_of. lia.
Qed.
Lemma pidx_depth : forall h d, (d <= 5)%nat -> index_depth (pidx h d) = Z.of_nat d.
Proof.
  induction d; intros H; cbn [pidx]; [apply depth_one; lia|].
  pose proof (pidx_bound h d). pose proof (hord_range h d).
  rewrite depth_child, IHd; try lia.
  assert (64 ^ Z.of_nat d <= 64 ^ 5) by (apply Z.pow_le_mono_r; lia).
  change (64 ^ 5) with (2 ^ 30) in *. lia.
Qed.

(* ---- structure ---- *)
Definition amap := Z -> option Z.          (* index -> address *)
Definition lmap := Z -> list dslot.        (* index -> slots *)
Definition aoff (o : option Z) : Z := match o with Some a => a | None => NULL_OFF end.
Definition count_childs (l : list Z) : Z := zsum (map (fun c => if c =? NULL_OFF then 0 else 1) l).

Record node_ok (am : amap) (lm : lmap) (i : Z) (n : dnode) : Prop := mkNok {
  n_rep : exists pos, rep n (lm i) pos;
  n_idx : dn_index n = i;
  n_par : dn_parent n = if i =? 1 then NULL_OFF else aoff (am (index_to_parent i));
  n_len : length (dn_child n) = 64%nat;
  n_act : dn_nact n = count_childs (dn_child n);
  n_chd : forall o, 0 <= o < 64 -> dtn_child n o = aoff (am (child_index_of i o)) }.

Record tree (nodes : Z -> option dnode) (am : amap) (lm : lmap) : Prop := mkTree {
  t_idx : forall i a, am i = Some a -> 1 <= i <= DTREE_INDEX_MAX /\ 0 <= a;
  t_up : forall i, am i <> None -> i = 1 \/ am (index_to_parent i) <> None;
  t_node : forall i a, am i = Some a -> exists n, nodes a = Some n /\ node_ok am lm i n;
  t_inj : forall i j a, am i = Some a -> am j = Some a -> i = j;
  t_all : forall a n, nodes a = Some n -> exists i, am i = Some a }.

Definition sits (am : amap) (lm : lmap) (i : Z) (s : nat) (e : dent) : Prop :=
  am i <> None /\ nth s (lm i) None = Some e.

Section Hash.
Variable hashf : Z -> bytes -> Z.

(* m lists the names with their inode and type *)
Record inv (st : dirst) (am : amap) (lm : lmap) (m : list (bytes * (Z * Z))) : Prop := mkInv {
  i_tree : tree (d_nodes st) am lm;
  i_root : d_root st = aoff (am 1);
  i_last0 : am 1 = None -> d_last st = 0;
  i_last : am 1 <> None -> 1 <= d_last st <= DTREE_INDEX_MAX /\ am (d_last st) <> None /\
                           forall i, am i <> None -> i <= d_last st;
  i_nod : NoDup (map fst m);
  i_cnt : d_ndents st = zlen m;
  i_max : zlen m <= DIR_ENTRIES_MAX;
  i_in : forall nm v, In (nm, v) m <-> exists i s e, sits am lm i s e /\ e_name e = nm /\ v = (e_ino e, e_dt e);
  i_uniq : forall i s e j t g, sits am lm i s e -> sits am lm j t g -> e_name e = e_name g -> i = j /\ s = t;
  i_place : forall i s e, sits am lm i s e ->
    e_hash e = hashf (d_seed st) (e_name e) /\ exists d, (d <= 4)%nat /\ i = pidx (e_hash e) d }.

Lemma inv_new : forall seed nl nodes, (forall a, nodes a = None) ->
  inv (dir_setup seed nl nodes) (fun _ => None) (fun _ => []) [].
Proof.
  intros. constructor; cbn [dir_setup d_nodes d_root d_last d_ndents d_seed]; auto.
  - constructor; try discriminate; try congruence.
  - congruence.
  - constructor.
  - cbn. unfold DIR_ENTRIES_MAX, DTREE_INDEX_MAX. lia.
  - intros. split; [contradiction|]. intros (i & s & e & (H1 & _) & _). congruence.
  - intros i s e j t g (H1 & _). congruence.
  - intros i s e (H1 & _). congruence.
Qed.

Section WithTree.
Variables (nodes : Z -> option dnode) (am : amap) (lm : lmap).
Hypothesis T : tree nodes am lm.

Lemma am_child_range : forall i a, am i = Some a -> 0 <= a /\ a <> NULL_OFF.
Proof. intros i a H. destruct (t_idx _ _ _ T i a H). unfold NULL_OFF. lia. Qed.

Lemma aoff_null : forall i, aoff (am i) = NULL_OFF <-> am i = None.
Proof.
  intros i. destruct (am i) as [a|] eqn:E; cbn [aoff]; [|tauto].
  destruct (am_child_range i a E). split; [congruence|discriminate].
Qed.

Lemma path_up : forall h k d, am (pidx h (d + k)) <> None -> am (pidx h d) <> None.
Proof.
  intros h. induction k; intros d H.
  - replace (d + 0)%nat with d in H by lia. exact H.
  - replace (d + S k)%nat with (S (d + k)) in H by lia.
    apply IHk. cbn [pidx] in H. pose proof (pidx_bound h (d + k)). pose proof (hord_range h (d + k)).
    pose proof (child_ge2 (pidx h (d + k)) (hord h (d + k))).
    destruct (t_up _ _ _ T _ H) as [E|E]; [lia|]. rewrite parent_of_child in E by lia. exact E.
Qed.

Lemma find_slot_is : forall l name h s e,
  nth s l None = Some e -> e_name e = name -> e_hash e = h ->
  (forall t g, nth t l None = Some g -> e_name g = name -> t = s) ->
  find_slot (fun o => slot_is o name h) l = Some s.
Proof.
  intros l name h s e He Hn Hh U. pose proof (nth_some_lt _ _ _ He) as Hs.
  destruct (find_slot (fun o => slot_is o name h) l) as [t|] eqn:F.
  - destruct (find_slot_some _ _ _ F) as (_ & H2 & _). unfold slot_is in H2.
    destruct (nth t l None) as [g|] eqn:G; [|discriminate].
    apply andb_prop in H2. destruct H2 as (_ & H2). apply bytes_eqb_eq in H2.
    rewrite (U t g G H2). reflexivity.
  - pose proof (find_slot_none _ _ F (Some e)) as Q.
    rewrite <- He in Q at 1. specialize (Q (nth_In _ _ Hs)). cbn [slot_is] in Q.
    subst. rewrite Z.eqb_refl, bytes_eqb_refl in Q. discriminate.
Qed.
Lemma find_slot_isnt : forall l name h,
  (forall t g, nth t l None = Some g -> e_name g <> name) ->
  find_slot (fun o => slot_is o name h) l = None.
Proof.
  intros l name h U. destruct (find_slot (fun o => slot_is o name h) l) as [t|] eqn:F; auto.
  destruct (find_slot_some _ _ _ F) as (_ & H2 & _). unfold slot_is in H2.
  destruct (nth t l None) as [g|] eqn:G; [|discriminate].
  apply andb_prop in H2. destruct H2 as (_ & H2). apply bytes_eqb_eq in H2.
  exfalso. eapply U; eauto.
Qed.
End WithTree.

Section Lookup.
Variables (st : dirst) (am : amap) (lm : lmap).
Hypothesis T : tree (d_nodes st) am lm.
Variables (name : bytes) (h : Z).

Lemma lookup_loop_S : forall k a n depth,
  lookup_loop (S k) st a n depth name h =
    match dtn_search n name h with
    | Some s => LFound a s
    | None =>
      match hash_to_child_ord h (dtn_depth n + 1) with
      | None => LErr DFatal
      | Some ord =>
        let c := dtn_child n ord in
        if c =? NULL_OFF then LErr DNoEnt
        else match d_nodes st c with
             | None => LErr DCorrupt
             | Some cn => if depth + 1 =? dtn_depth cn
                          then lookup_loop k st c cn (depth + 1) name h
                          else LErr DCorrupt
             end
      end
    end.
Proof. reflexivity. Qed.

(* one step down *)
Lemma step_child : forall d a n, (d <= 3)%nat -> am (pidx h d) = Some a -> node_ok am lm (pidx h d) n ->
  hash_to_child_ord h (dtn_depth n + 1) = Some (hord h d) /\
  dtn_child n (hord h d) = aoff (am (pidx h (S d))).
Proof.
  intros d a n Hd Ha N. unfold dtn_depth. rewrite (n_idx _ _ _ _ N), pidx_depth by lia.
  split; [apply hash_ord_eq; auto|]. rewrite (n_chd _ _ _ _ N) by apply hord_range. reflexivity.
Qed.

Lemma lookup_present : forall dl b s e, (dl <= 4)%nat -> am (pidx h dl) = Some b ->
  nth s (lm (pidx h dl)) None = Some e -> e_name e = name -> e_hash e = h ->
  (forall i t g, sits am lm i t g -> e_name g = name -> i = pidx h dl /\ t = s) ->
  forall k d a n rounds, (d + k)%nat = dl -> (rounds > k)%nat ->
  am (pidx h d) = Some a -> d_nodes st a = Some n ->
  lookup_loop rounds st a n (Z.of_nat d) name h = LFound b s.
Proof.
  intros dl b s e Hdl Hb He Hnm Hh U. induction k; intros d a n rounds Hk Hr Ha Hn;
    (destruct rounds as [|rounds]; [lia|]); cbn [lookup_loop];
    destruct (t_node _ _ _ T _ _ Ha) as (n' & Hn' & N); rewrite Hn in Hn'; inversion Hn'; subst n';
    destruct (n_rep _ _ _ _ N) as (pos & R); rewrite (rep_search _ _ _ R).
  - replace d with dl in * by lia. rewrite Hb in Ha. inversion Ha; subst.
    rewrite (find_slot_is _ _ _ s e); auto.
    intros t g Hg Hgn. destruct (U (pidx (e_hash e) dl) t g) as (_ & Q); auto. split; auto. congruence.
  - rewrite find_slot_isnt.
    2:{ intros t g Hg Hgn. destruct (U (pidx h d) t g) as (Q & _); auto.
        - split; auto. congruence.
        - apply (f_equal index_depth) in Q. rewrite !pidx_depth in Q by lia. lia. }
    destruct (step_child d a n ltac:(lia) Ha N) as (-> & ->).
    assert (A : am (pidx h (S d)) <> None).
    { apply (path_up _ _ _ T h k). replace (S d + k)%nat with dl by lia. congruence. }
    destruct (am (pidx h (S d))) as [c|] eqn:C; [|congruence]. cbn [aoff].
    destruct (am_child_range _ _ _ T _ _ C) as (_ & Cn). destruct (Z.eqb_spec c NULL_OFF); [congruence|].
    destruct (t_node _ _ _ T _ _ C) as (cn & Hcn & CN). rewrite Hcn.
    unfold dtn_depth at 1. rewrite (n_idx _ _ _ _ CN), pidx_depth by lia.
    replace (Z.of_nat d + 1 =? Z.of_nat (S d)) with true by lia.
    replace (Z.of_nat d + 1) with (Z.of_nat (S d)) by lia. apply IHk; auto; lia.
Qed.

Lemma lookup_absent : (forall i t g, sits am lm i t g -> e_name g <> name) ->
  forall k d a n, (d + k)%nat = 4%nat ->
  am (pidx h d) = Some a -> d_nodes st a = Some n ->
  lookup_loop (S k) st a n (Z.of_nat d) name h = LErr DNoEnt \/
  (lookup_loop (S k) st a n (Z.of_nat d) name h = LErr DFatal /\ am (pidx h 4) <> None).
Proof.
  intros U. induction k; intros d a n Hk Ha Hn; rewrite lookup_loop_S; cbv zeta;
    destruct (t_node _ _ _ T _ _ Ha) as (n' & Hn' & N); rewrite Hn in Hn'; inversion Hn'; subst n';
    destruct (n_rep _ _ _ _ N) as (pos & R); rewrite (rep_search _ _ _ R);
    (rewrite find_slot_isnt; [|intros t g Hg; apply (U (pidx h d) t g); split; auto; congruence]).
  - replace d with 4%nat in * by lia. unfold dtn_depth. rewrite (n_idx _ _ _ _ N), pidx_depth by lia.
    rewrite hash_ord_deep. right. split; [reflexivity|congruence].
  - destruct (step_child d a n ltac:(lia) Ha N) as (-> & ->).
    destruct (am (pidx h (S d))) as [c|] eqn:C; cbn [aoff]; [|left; reflexivity].
    destruct (am_child_range _ _ _ T _ _ C) as (_ & Cn). destruct (Z.eqb_spec c NULL_OFF); [congruence|].
    destruct (t_node _ _ _ T _ _ C) as (cn & Hcn & CN). rewrite Hcn.
    unfold dtn_depth. rewrite (n_idx _ _ _ _ CN), pidx_depth by lia.
    replace (Z.of_nat d + 1 =? Z.of_nat (S d)) with true by lia.
    replace (Z.of_nat d + 1) with (Z.of_nat (S d)) by lia. apply IHk; auto; lia.
Qed.
End Lookup.

Definition legal_name (name : bytes) : Prop := 1 <= zlen name <= 255.
Lemma check_name_legal : forall name, legal_name name -> check_name name = DOk.
Proof.
  intros name (H1 & H2). unfold check_name.
  destruct (Z.eqb_spec (zlen name) 0); [lia|]. destruct (Z.ltb_spec 255 (zlen name)); [lia|reflexivity].
Qed.

Lemma rounds_root : forall n, dn_index n = 1 -> rounds_from (dtn_depth n) = 5%nat /\ dtn_depth n = Z.of_nat 0.
Proof.
  intros n H. unfold dtn_depth. rewrite H. rewrite depth_one by lia. split; reflexivity.
Qed.

(* where a listed name is found *)
Lemma lookup_dei_present : forall st am lm m i s e, inv st am lm m -> sits am lm i s e ->
  legal_name (e_name e) ->
  exists b, am i = Some b /\ lookup_dei st (e_name e) (hashf (d_seed st) (e_name e)) = LFound b s.
Proof.
  intros st am lm m i s e I S L. pose proof S as (S1 & S2). destruct (am i) as [b|] eqn:B; [|congruence].
  exists b. split; auto. unfold lookup_dei. rewrite check_name_legal by auto.
  destruct (i_place _ _ _ _ I _ _ _ S) as (Hh & d & Hd & ->).
  assert (M : In (e_name e, (e_ino e, e_dt e)) m) by (apply (i_in _ _ _ _ I); eauto 6).
  rewrite (i_cnt _ _ _ _ I). destruct (Z.eqb_spec (zlen m) 0).
  { destruct m; [contradiction|]. rewrite zlen_cons in *. pose proof (zlen_nonneg _ m). lia. }
  pose proof (i_tree _ _ _ _ I) as T.
  assert (A1 : am (pidx (e_hash e) 0) <> None).
  { apply (path_up _ _ _ T (e_hash e) d 0). replace (0 + d)%nat with d by lia. congruence. }
  cbn [pidx] in A1. rewrite (i_root _ _ _ _ I).
  destruct (am 1) as [r|] eqn:R; [|congruence]. cbn [aoff].
  destruct (am_child_range _ _ _ T _ _ R) as (_ & Rn). destruct (Z.eqb_spec r NULL_OFF); [congruence|].
  destruct (t_node _ _ _ T _ _ R) as (rn & Hrn & RN). rewrite Hrn.
  destruct (rounds_root rn (n_idx _ _ _ _ RN)) as (-> & ->).
  rewrite <- Hh. apply (lookup_present st am lm T (e_name e) (e_hash e) d b s e) with (k := d); auto; try lia.
  intros j t g G1 G2. apply (i_uniq _ _ _ _ I _ _ _ _ _ _ G1 S G2).
Qed.

Lemma lookup_dei_absent : forall st am lm m name, inv st am lm m -> ~ In name (map fst m) ->
  legal_name name ->
  lookup_dei st name (hashf (d_seed st) name) = LErr DNoEnt \/
  (lookup_dei st name (hashf (d_seed st) name) = LErr DFatal /\
   266306 <= d_last st).
Proof.
  intros st am lm m name I A L. unfold lookup_dei. rewrite check_name_legal by auto.
  destruct (d_ndents st =? 0); [left; reflexivity|].
  pose proof (i_tree _ _ _ _ I) as T. rewrite (i_root _ _ _ _ I).
  destruct (am 1) as [r|] eqn:R; cbn [aoff]; [|left; reflexivity].
  destruct (am_child_range _ _ _ T _ _ R) as (_ & Rn). destruct (Z.eqb_spec r NULL_OFF); [congruence|].
  destruct (t_node _ _ _ T _ _ R) as (rn & Hrn & RN). rewrite Hrn.
  destruct (rounds_root rn (n_idx _ _ _ _ RN)) as (-> & ->).
  destruct (lookup_absent st am lm T name (hashf (d_seed st) name)) with (k := 4%nat) (d := 0%nat) (a := r) (n := rn)
    as [Q|(Q & P)]; auto.
  - intros i t g G E. apply A. apply in_map_iff. exists (e_name g, (e_ino g, e_dt g)). split; auto.
    apply (i_in _ _ _ _ I). eauto 6.
  - right. split; auto. destruct (i_last _ _ _ _ I) as (H1 & _ & H3); [congruence|].
    specialize (H3 _ P).
    pose proof (pidx_depth (hashf (d_seed st) name) 4 ltac:(lia)) as D.
    destruct (depth_le3 (pidx (hashf (d_seed st) name) 4)) as (_ & D3).
    { unfold DTREE_INDEX_MAX in *. lia. }
    destruct (Z.leb_spec (pidx (hashf (d_seed st) name) 4) 266305); lia.
Qed.

(* ---- updating one node's slots ---- *)
Lemma tree_update : forall nodes am lm i a n n' l' pos, tree nodes am lm ->
  am i = Some a -> nodes a = Some n -> rep n' l' pos ->
  dn_parent n' = dn_parent n -> dn_index n' = dn_index n -> dn_nact n' = dn_nact n -> dn_child n' = dn_child n ->
  tree (fset nodes a (Some n')) am (fset lm i l').
Proof.
  intros nodes am lm i a n n' l' pos T Ha Hn R E1 E2 E3 E4. destruct T as [T1 T2 T3 T4 T5].
  constructor; auto.
  - intros j b Hb. destruct (Z.eq_dec j i) as [->|Hj].
    + rewrite Ha in Hb. inversion Hb; subst b. exists n'. rewrite fset_same. split; auto.
      destruct (T3 i a Ha) as (n0 & Hn0 & [N1 N2 N3 N4 N5 N6]). rewrite Hn in Hn0. inversion Hn0; subst n0.
      constructor; try congruence.
      * exists pos. rewrite fset_same. exact R.
      * intros o Ho. unfold dtn_child. rewrite E4. apply N6. auto.
    + destruct (T3 j b Hb) as (n0 & Hn0 & [N1 N2 N3 N4 N5 N6]). exists n0.
      assert (b <> a) by (intros ->; apply Hj; eapply T4; eauto).
      rewrite fset_other by auto. split; auto.
      constructor; auto. rewrite fset_other by auto. exact N1.
  - intros b x Hb. destruct (Z.eq_dec b a) as [->|]; [eauto|]. rewrite fset_other in Hb by auto. eauto.
Qed.

(* ---- attaching a new node ---- *)
Lemma count_null : forall k, count_childs (repeat NULL_OFF k) = 0.
Proof. unfold count_childs. induction k; cbn [repeat map]; [reflexivity|]. rewrite zsum_cons. cbn. lia. Qed.
Lemma count_upd : forall l k a, (k < length l)%nat -> nth k l NULL_OFF = NULL_OFF -> a <> NULL_OFF ->
  count_childs (upd l k a) = count_childs l + 1.
Proof.
  unfold count_childs. induction l as [|x l IH]; intros k a Hk Hn Ha; cbn [length] in *; [lia|].
  destruct k; cbn [upd map nth] in *; rewrite !zsum_cons.
  - subst x. rewrite Z.eqb_refl. destruct (Z.eqb_spec a NULL_OFF); [congruence|lia].
  - rewrite IH by (auto; lia). lia.
Qed.
Lemma count_bound : forall l, 0 <= count_childs l <= zlen l.
Proof.
  unfold count_childs. induction l as [|x l IH]; cbn [map]; [cbn; lia|].
  rewrite zsum_cons, zlen_cons. destruct (x =? NULL_OFF); lia.
Qed.
Lemma count_zero : forall l, count_childs l = 0 -> forall x, In x l -> x = NULL_OFF.
Proof.
  induction l as [|x l IHl]; intros Z0 y Hy; [contradiction|].
  unfold count_childs in *. cbn [map] in Z0. rewrite zsum_cons in Z0.
  pose proof (count_bound l) as CB. unfold count_childs in CB.
  destruct (Z.eqb_spec x NULL_OFF); [|lia]. destruct Hy as [->|Hy]; auto.
Qed.
Lemma nth_null : forall k j, nth j (repeat NULL_OFF k) NULL_OFF = NULL_OFF.
Proof. induction k; destruct j; cbn; auto. Qed.

Lemma am_pos : forall nodes am lm i, tree nodes am lm -> am i <> None -> 1 <= i.
Proof. intros nodes am lm i T H. destruct (am i) eqn:E; [|congruence]. apply (t_idx _ _ _ T) in E. lia. Qed.

Lemma tree_spawn : forall nodes am lm p a n ord ca, tree nodes am lm ->
  am p = Some a -> nodes a = Some n -> 0 <= ord < 64 ->
  am (child_index_of p ord) = None -> child_index_of p ord <= DTREE_INDEX_MAX ->
  nodes ca = None -> 0 <= ca ->
  tree (fset (fset nodes ca (Some (dtn_setup (child_index_of p ord) a))) a
             (Some (bind_child n ca (child_index_of p ord))))
       (fset am (child_index_of p ord) (Some ca)) (fset lm (child_index_of p ord) []).
Proof.
  intros nodes am lm p a n ord ca T Ha Hn Ho Hi Hm Hca Hca0.
  pose proof (t_idx _ _ _ T p a Ha) as (Hp & Ha0).
  pose proof (am_pos nodes am lm) as AP.
  set (i := child_index_of p ord) in *.
  assert (Hi2 : 2 <= i) by (apply child_ge2; lia).
  assert (Hip : index_to_parent i = p) by (apply parent_of_child; lia).
  assert (Ei : child_index_of p ord = i) by reflexivity. clearbody i.
  assert (Hpi : p <> i) by (intros E; rewrite <- E, Ha in Hi; discriminate).
  assert (Haca : a <> ca) by congruence.
  assert (Par : forall j, am j <> None -> j <> 1 -> index_to_parent j <> i).
  { intros j Hj J1 E. destruct (t_up _ _ _ T j Hj); [lia|]. congruence. }
  assert (Chd : forall o, 0 <= o < 64 -> am (child_index_of i o) = None).
  { intros o Hoo. destruct (am (child_index_of i o)) eqn:E; auto. exfalso.
    apply (Par (child_index_of i o)); [congruence| |apply parent_of_child; lia].
    pose proof (child_ge2 i o). lia. }
  constructor.
  - intros j b Hb. destruct (Z.eq_dec j i) as [->|Hj].
    + rewrite fset_same in Hb. inversion Hb; subst. lia.
    + rewrite fset_other in Hb by auto. apply (t_idx _ _ _ T _ _ Hb).
  - intros j Hj. destruct (Z.eq_dec j i) as [->|Hji].
    + right. rewrite Hip, fset_other by auto. congruence.
    + rewrite fset_other in Hj by auto. destruct (Z.eq_dec j 1); [left; auto|right].
      destruct (t_up _ _ _ T j Hj) as [|Q]; [lia|].
      rewrite fset_other by (apply Par; auto). exact Q.
  - intros j b Hb. destruct (Z.eq_dec j i) as [->|Hj].
    + rewrite fset_same in Hb. inversion Hb; subst b. exists (dtn_setup i a).
      rewrite fset_other, fset_same by auto. split; auto. constructor.
      * exists (fun _ => 0). rewrite fset_same. apply rep_setup.
      * reflexivity.
      * cbn [dtn_setup dn_parent]. destruct (Z.eqb_spec i 1); [lia|].
        rewrite Hip, fset_other by auto. rewrite Ha. reflexivity.
      * reflexivity.
      * symmetry. apply (count_null 64).
      * intros o Hoo. unfold dtn_child. cbn [dtn_setup dn_child]. rewrite nth_null.
        rewrite fset_other; [rewrite Chd by auto; reflexivity|].
        unfold child_index_of at 1. lia.
    + rewrite fset_other in Hb by auto.
      destruct (t_node _ _ _ T j b Hb) as (n0 & Hn0 & [N1 N2 N3 N4 N5 N6]).
      assert (Hj1 : 1 <= j) by (apply (t_idx _ _ _ T) in Hb; lia).
      assert (PP : dn_parent n0 = if j =? 1 then NULL_OFF else aoff (fset am i (Some ca) (index_to_parent j))).
      { rewrite N3. destruct (Z.eqb_spec j 1); auto. rewrite fset_other; auto. apply Par; auto. congruence. }
      destruct (Z.eq_dec j p) as [->|Hjp].
      * rewrite Ha in Hb. inversion Hb; subst b. rewrite Hn in Hn0. inversion Hn0; subst n0.
        exists (bind_child n ca i). rewrite fset_same. split; auto.
        assert (Ci : index_to_child_ord i = ord) by (rewrite <- Ei; apply ord_of_child; lia).
        assert (Nul : dtn_child n ord = NULL_OFF) by (rewrite N6 by lia; rewrite Ei, Hi; reflexivity).
        unfold bind_child. rewrite Ci, Nul. cbn [negb Z.eqb]. change (NULL_OFF =? NULL_OFF) with true. cbn [negb].
        constructor; cbn [dn_index dn_parent dn_child dn_nact].
        -- destruct N1 as (pos & R). exists pos. rewrite fset_other by auto.
           apply (rep_relink _ _ _ _ R); reflexivity.
        -- exact N2.
        -- exact PP.
        -- rewrite upd_length. exact N4.
        -- pose proof (count_bound (dn_child n)) as CB. unfold zlen in CB. rewrite N4 in CB.
           rewrite count_upd; [rewrite N5; unfold u32; lia|lia|exact Nul|unfold NULL_OFF; lia].
        -- intros o Hoo. unfold dtn_child. cbn [dn_child]. destruct (Z.eq_dec o ord) as [->|Hne].
           ++ rewrite nth_upd_same by lia. rewrite Ei, fset_same. reflexivity.
           ++ rewrite nth_upd_other by lia. fold (dtn_child n o). rewrite N6 by auto.
              rewrite fset_other; auto. intros E. apply Hne. destruct (child_inj p o p ord); auto; lia.
      * assert (b <> a) by (intros ->; apply Hjp; eapply (t_inj _ _ _ T); eauto).
        assert (b <> ca) by congruence.
        exists n0. rewrite !fset_other by auto. split; auto. constructor; auto.
        -- rewrite fset_other by auto. exact N1.
        -- intros o Hoo. rewrite N6 by auto. rewrite fset_other; auto.
           intros E. apply Hjp. destruct (child_inj j o p ord); auto; lia.
  - intros j k b Hj Hk. destruct (Z.eq_dec j i) as [->|Hji]; destruct (Z.eq_dec k i) as [->|Hki]; auto.
    + rewrite fset_same in Hj. rewrite fset_other in Hk by auto. inversion Hj; subst b.
      destruct (t_node _ _ _ T _ _ Hk) as (x & Hx & _). congruence.
    + rewrite fset_same in Hk. rewrite fset_other in Hj by auto. inversion Hk; subst b.
      destruct (t_node _ _ _ T _ _ Hj) as (x & Hx & _). congruence.
    + rewrite fset_other in Hj, Hk by auto. eapply (t_inj _ _ _ T); eauto.
  - intros b x Hb. destruct (Z.eq_dec b ca) as [->|Hbc].
    + exists i. apply fset_same.
    + destruct (Z.eq_dec b a) as [->|Hba].
      * exists p. rewrite fset_other by auto. exact Ha.
      * rewrite !fset_other in Hb by auto. destruct (t_all _ _ _ T _ _ Hb) as (k & Hk).
        exists k. rewrite fset_other by congruence. exact Hk.
Qed.

Lemma tree_empty : forall nodes am lm, tree nodes am lm -> am 1 = None ->
  (forall i, am i = None) /\ (forall a, nodes a = None).
Proof.
  intros nodes am lm T H.
  assert (Q : forall k i, i <= Z.of_nat k -> am i = None).
  { induction k; intros i Hi.
    - destruct (am i) eqn:E; auto. apply (t_idx _ _ _ T) in E. lia.
    - destruct (am i) eqn:E; auto. exfalso. pose proof (t_idx _ _ _ T _ _ E).
      destruct (Z.eq_dec i 1); [congruence|].
      destruct (t_up _ _ _ T i) as [|X]; [congruence|lia|]. apply X. apply IHk.
      pose proof (parent_pos i). lia. }
  assert (Q' : forall i, am i = None) by (intros i; apply (Q (Z.to_nat i)); lia).
  split; auto. intros a. destruct (nodes a) eqn:E; auto.
  destruct (t_all _ _ _ T _ _ E) as (i & Hi). congruence.
Qed.

Lemma tree_root : forall nodes am lm a, tree nodes am lm -> am 1 = None -> 0 <= a ->
  tree (fset nodes a (Some (dtn_setup 1 NULL_OFF))) (fset am 1 (Some a)) (fset lm 1 []).
Proof.
  intros nodes am lm a T H Ha. destruct (tree_empty _ _ _ T H) as (Em & En).
  assert (Am : forall i b, fset am 1 (Some a) i = Some b -> i = 1 /\ b = a).
  { intros i b Hb. destruct (Z.eq_dec i 1) as [->|].
    - rewrite fset_same in Hb. inversion Hb. auto.
    - rewrite fset_other, Em in Hb by auto. discriminate. }
  constructor.
  - intros i b Hb. apply Am in Hb. unfold DTREE_INDEX_MAX. lia.
  - intros i Hi. destruct (fset am 1 (Some a) i) eqn:E; [|congruence]. apply Am in E. left. lia.
  - intros i b Hb. destruct (Am _ _ Hb) as (-> & ->). exists (dtn_setup 1 NULL_OFF). rewrite fset_same.
    split; auto. constructor.
    + exists (fun _ => 0). rewrite fset_same. apply rep_setup.
    + reflexivity.
    + reflexivity.
    + reflexivity.
    + symmetry. apply (count_null 64).
    + intros o Ho. unfold dtn_child. cbn [dtn_setup dn_child]. rewrite nth_null.
      pose proof (child_ge2 1 o). rewrite fset_other by lia. rewrite Em. reflexivity.
  - intros i j b Hi Hj. apply Am in Hi. apply Am in Hj. lia.
  - intros b x Hb. destruct (Z.eq_dec b a) as [->|]; [exists 1; apply fset_same|].
    rewrite fset_other, En in Hb by auto. discriminate.
Qed.

(* ---- adding ---- *)
Lemma sits_insert : forall am lm i e j t g, am i <> None ->
  sits am (fset lm i (slots_insert (lm i) e)) j t g <->
  (sits am lm j t g \/ (j = i /\ t = slot_new (lm i) /\ g = e)).
Proof.
  intros am lm i e j t g Hi. unfold sits. destruct (Z.eq_dec j i) as [->|Hj].
  - rewrite fset_same, slots_insert_nth. destruct (Nat.eqb_spec t (slot_new (lm i))).
    + subst t. split.
      * intros (_ & E). inversion E; subst. right. auto.
      * intros [(_ & E)|(_ & _ & ->)]; auto. rewrite slot_new_nth in E. discriminate.
    + split; [intros (A & B); left; auto|]. intros [Q|(_ & Q & _)]; [auto|congruence].
  - rewrite fset_other by auto. split; [intros Q; left; auto|]. intros [Q|(Q & _)]; [auto|congruence].
Qed.

Lemma inv_insert : forall st am lm m d a n e, inv st am lm m ->
  (d <= 4)%nat -> am (pidx (e_hash e) d) = Some a -> d_nodes st a = Some n ->
  e_hash e = hashf (d_seed st) (e_name e) -> dent_ok e -> ~ In (e_name e) (map fst m) ->
  dtn_may_insert n (zlen (e_name e)) = true -> zlen m < DIR_ENTRIES_MAX ->
  inv (set_ndents (set_node st a (dtn_insert n (e_name e) (e_hash e) (e_ino e) (e_dt e))) (d_ndents st + 1))
      am (fset lm (pidx (e_hash e) d) (slots_insert (lm (pidx (e_hash e) d)) e))
      ((e_name e, (e_ino e, e_dt e)) :: m).
Proof.
  intros st am lm m d a n e I Hd Ha Hn Hh Hok Hab Hmi Hmx.
  pose proof (i_tree _ _ _ _ I) as T.
  destruct (t_node _ _ _ T _ _ Ha) as (n0 & Hn0 & N). rewrite Hn in Hn0. inversion Hn0; subst n0.
  destruct (n_rep _ _ _ _ N) as (pos & R).
  pose proof (rep_insert n _ pos e R Hok Hmi) as R'.
  destruct (insert_frame n (e_name e) (e_hash e) (e_ino e) (e_dt e)) as (F1 & F2 & F3 & F4).
  assert (Hi : am (pidx (e_hash e) d) <> None) by congruence.
  set (i := pidx (e_hash e) d) in *.
  assert (Old : forall j t g, sits am lm j t g -> e_name g <> e_name e).
  { intros j t g G E. apply Hab. apply in_map_iff. exists (e_name g, (e_ino g, e_dt g)). split; auto.
    apply (i_in _ _ _ _ I). eauto 6. }
  constructor; cbn [set_ndents set_node d_nodes d_root d_last d_ndents d_seed].
  - eapply tree_update; eauto.
  - apply (i_root _ _ _ _ I).
  - apply (i_last0 _ _ _ _ I).
  - apply (i_last _ _ _ _ I).
  - cbn [map fst]. constructor; auto. apply (i_nod _ _ _ _ I).
  - rewrite zlen_cons, (i_cnt _ _ _ _ I). pose proof (zlen_nonneg _ m).
    unfold DIR_ENTRIES_MAX, DTREE_INDEX_MAX in *. unfold u64. lia.
  - rewrite zlen_cons. lia.
  - intros nm v. split.
    + intros [E|E].
      * inversion E; subst. exists i, (slot_new (lm i)), e. split; auto. apply sits_insert; auto.
      * apply (i_in _ _ _ _ I) in E. destruct E as (j & t & g & G & E). exists j, t, g. split; auto.
        apply sits_insert; auto.
    + intros (j & t & g & G & E1 & E2). apply sits_insert in G; auto.
      destruct G as [G|(-> & -> & ->)].
      * right. apply (i_in _ _ _ _ I). eauto 6.
      * left. congruence.
  - intros j t g j' t' g' G G' E. apply sits_insert in G; auto. apply sits_insert in G'; auto.
    destruct G as [G|(-> & -> & ->)]; destruct G' as [G'|(-> & -> & ->)]; auto.
    + apply (i_uniq _ _ _ _ I _ _ _ _ _ _ G G' E).
    + exfalso. apply (Old _ _ _ G E).
    + exfalso. apply (Old _ _ _ G'). auto.
  - intros j t g G. apply sits_insert in G; auto. destruct G as [G|(-> & -> & ->)].
    + apply (i_place _ _ _ _ I _ _ _ G).
    + split; auto. exists d. auto.
Qed.

Lemma inv_spawn : forall st am lm m p a n ord ca, inv st am lm m ->
  am p = Some a -> d_nodes st a = Some n -> 0 <= ord < 64 ->
  am (child_index_of p ord) = None -> child_index_of p ord <= DTREE_INDEX_MAX ->
  d_nodes st ca = None -> 0 <= ca ->
  inv (set_node (set_last (set_node st ca (dtn_setup (child_index_of p ord) a))
                          (last_index_add (d_last st) (child_index_of p ord)))
                a (bind_child n ca (child_index_of p ord)))
      (fset am (child_index_of p ord) (Some ca)) (fset lm (child_index_of p ord) []) m.
Proof.
  intros st am lm m p a n ord ca I Ha Hn Ho Hi Hm Hca Hca0.
  pose proof (i_tree _ _ _ _ I) as T. pose proof (t_idx _ _ _ T p a Ha) as (Hp & _).
  assert (Hi2 : 2 <= child_index_of p ord) by (apply child_ge2; lia).
  assert (A1 : am 1 <> None).
  { intros E. destruct (tree_empty _ _ _ T E) as (Q & _). congruence. }
  pose proof (tree_spawn _ _ _ p a n ord ca T Ha Hn Ho Hi Hm Hca Hca0) as T'.
  set (i := child_index_of p ord) in *. clearbody i.
  assert (S1 : forall j t g, sits (fset am i (Some ca)) (fset lm i []) j t g <-> sits am lm j t g).
  { intros j t g. unfold sits. destruct (Z.eq_dec j i) as [->|Hj].
    - rewrite !fset_same. split; intros (G1 & G2); [destruct t; discriminate|congruence].
    - rewrite !fset_other by auto. tauto. }
  destruct (i_last _ _ _ _ I A1) as (L1 & L2 & L3).
  assert (U : u32 (last_index_add (d_last st) i) = Z.max (d_last st) i).
  { unfold last_index_add. unfold DTREE_INDEX_MAX in *. unfold u32.
    destruct (Z.ltb_spec (d_last st) i); destruct (Z.eqb_spec (d_last st) 0); cbn [orb]; lia. }
  constructor; cbn [set_node set_last d_nodes d_root d_last d_ndents d_seed].
  - exact T'.
  - rewrite fset_other by lia. apply (i_root _ _ _ _ I).
  - rewrite fset_other by lia. congruence.
  - intros _. rewrite U. split; [lia|]. split.
    + destruct (Z.leb_spec (d_last st) i).
      * rewrite Z.max_r by lia. rewrite fset_same. discriminate.
      * rewrite Z.max_l by lia. rewrite fset_other by lia. exact L2.
    + intros j Hj. destruct (Z.eq_dec j i) as [->|]; [lia|]. rewrite fset_other in Hj by auto.
      specialize (L3 j Hj). lia.
  - apply (i_nod _ _ _ _ I).
  - apply (i_cnt _ _ _ _ I).
  - apply (i_max _ _ _ _ I).
  - intros nm v. rewrite (i_in _ _ _ _ I).
    split; intros (j & t & g & G & E); exists j, t, g; (split; [apply S1|]; auto).
  - intros j t g j' t' g' G G'. apply S1 in G. apply S1 in G'. apply (i_uniq _ _ _ _ I _ _ _ _ _ _ G G').
  - intros j t g G. apply S1 in G. apply (i_place _ _ _ _ I _ _ _ G).
Qed.

Definition fresh (st : dirst) (a : Z) : Prop := d_nodes st a = None /\ 0 <= a.
Lemma spawn_some : forall st orc a r, spawn st orc = (Some a, r) -> fresh st a /\ exists r', orc = Some a :: r'.
Proof.
  intros st orc a r H. unfold spawn in H. destruct orc as [|[x|] orc]; try discriminate.
  destruct (d_nodes st x) eqn:E; [discriminate|]. destruct (Z.leb_spec 0 x); [|discriminate].
  inversion H; subst. split; [split; auto|eauto].
Qed.
Lemma spawn_fresh : forall st a r, fresh st a -> spawn st (Some a :: r) = (Some a, r).
Proof.
  intros st a r (H1 & H2). cbn [spawn]. rewrite H1. destruct (Z.leb_spec 0 a); [reflexivity|lia].
Qed.

Lemma may_insert_fresh : forall i p k, k <= 255 -> dtn_may_insert (dtn_setup i p) k = true.
Proof.
  intros i p k H. rewrite (rep_may_insert _ _ _ k (rep_setup i p)). unfold names_len. cbn [map length zsum fold_right]. change (zsum []) with 0. lia.
Qed.

(* names already present stay where they are *)
Definition kept (am : amap) (lm : lmap) (am' : amap) (lm' : lmap) : Prop :=
  (forall i s e, sits am lm i s e -> sits am' lm' i s e) /\ (forall i, am i <> None -> am' i <> None).

Lemma kept_refl : forall am lm, kept am lm am lm.
Proof. intros am lm. split; auto. Qed.

Lemma add_loop_S : forall k st a n depth name h ino dt orc,
  add_loop (S k) st a n depth name h ino dt orc =
    if dtn_may_insert n (zlen name)
    then (DOk, set_ndents (set_node st a (dtn_insert n name h ino dt)) (d_ndents st + 1))
    else
      match hash_to_child_ord h (dtn_depth n + 1) with
      | None => (DFatal, st)
      | Some ord =>
        let c := dtn_child n ord in
        if negb (c =? NULL_OFF) then
          match d_nodes st c with
          | None => (DCorrupt, st)
          | Some cn => if depth + 1 =? dtn_depth cn
                       then add_loop k st c cn (depth + 1) name h ino dt orc
                       else (DCorrupt, st)
          end
        else
          let i := child_index_of (dn_index n) ord in
          if negb (index_valid_depth i) then (DNoSpc, st)
          else match spawn_setup st a i orc with
               | (None, _) => (DNoSpc, st)
               | (Some (ca, st1), orc1) =>
                 let st2 := set_node st1 a (bind_child n ca i) in
                 match d_nodes st2 ca with
                 | None => (DCorrupt, st2)
                 | Some cn => if depth + 1 =? dtn_depth cn
                              then add_loop k st2 ca cn (depth + 1) name h ino dt orc1
                              else (DCorrupt, st2)
                 end
               end
      end.
Proof. reflexivity. Qed.

Definition room_below (last : Z) : Prop := last < 262144.

Lemma add_loop_ok : forall name h ino dt v, v = (ino, dt) ->
  legal_name name -> 0 < ino < 2 ^ 64 -> 0 <= dt < 256 ->
  forall k d st am lm m a n orc, (d + k)%nat = 4%nat -> inv st am lm m ->
  h = hashf (d_seed st) name -> ~ In name (map fst m) -> zlen m < DIR_ENTRIES_MAX ->
  am (pidx h d) = Some a -> d_nodes st a = Some n ->
  let '(e, st') := add_loop (S k) st a n (Z.of_nat d) name h ino dt orc in
  (e = DOk /\ d_seed st' = d_seed st /\ d_nlink st' = d_nlink st /\ exists am' lm', inv st' am' lm' ((name, v) :: m) /\ kept am lm am' lm') \/
  (st' = st /\ ((e = DNoSpc /\ ~ (room_below (d_last st) /\ exists ca r, orc = Some ca :: r /\ fresh st ca)) \/
                (e = DFatal /\ 266306 <= d_last st))).
Proof.
  intros name h ino dt v Ev L Hino Hdt.
  set (e0 := mkDent ino dt h name).
  assert (Hok : dent_ok e0) by (unfold dent_ok, elen, e0; cbn [e_ino e_dt e_name]; unfold legal_name in L; lia).
  induction k; intros d st am lm m a n orc Hk I Hh Hab Hmx Ha Hn;
    pose proof (i_tree _ _ _ _ I) as T;
    destruct (t_node _ _ _ T _ _ Ha) as (n' & Hn' & N); rewrite Hn in Hn'; inversion Hn'; subst n'; clear Hn';
    rewrite add_loop_S; cbv zeta; destruct (dtn_may_insert n (zlen name)) eqn:M.
  - left. split; [reflexivity|]. split; [reflexivity|]. split; [reflexivity|]. do 2 eexists. split.
    + rewrite Ev. apply (inv_insert st am lm m d a n e0 I); auto. lia.
    + split; [|auto]. intros i s e S. apply sits_insert; [change (e_hash e0) with h; congruence|left; auto].
  - replace d with 4%nat in * by lia. unfold dtn_depth. rewrite (n_idx _ _ _ _ N), pidx_depth by lia.
    rewrite hash_ord_deep. right. split; auto. right. split; auto.
    destruct (i_last _ _ _ _ I) as (L1 & _ & L3).
    { intros E. destruct (tree_empty _ _ _ T E) as (Q & _). congruence. }
    assert (P4 : am (pidx h 4) <> None) by congruence. specialize (L3 _ P4).
    pose proof (pidx_depth h 4 ltac:(lia)) as D.
    destruct (depth_le3 (pidx h 4)) as (_ & D3). { unfold DTREE_INDEX_MAX in *. lia. }
    destruct (Z.leb_spec (pidx h 4) 266305); lia.
  - left. split; [reflexivity|]. split; [reflexivity|]. split; [reflexivity|]. do 2 eexists. split.
    + rewrite Ev. apply (inv_insert st am lm m d a n e0 I); auto. lia.
    + split; [|auto]. intros i s e S. apply sits_insert; [change (e_hash e0) with h; congruence|left; auto].
  - destruct (step_child am lm name h d a n ltac:(lia) Ha N) as (-> & ->).
    destruct (am (pidx h (S d))) as [c|] eqn:C; cbn [aoff].
    + destruct (am_child_range _ _ _ T _ _ C) as (_ & Cn). destruct (Z.eqb_spec c NULL_OFF); [congruence|]. cbn [negb].
      destruct (t_node _ _ _ T _ _ C) as (cn & Hcn & CN). rewrite Hcn.
      unfold dtn_depth at 1. rewrite (n_idx _ _ _ _ CN), pidx_depth by lia.
      replace (Z.of_nat d + 1 =? Z.of_nat (S d)) with true by lia.
      replace (Z.of_nat d + 1) with (Z.of_nat (S d)) by lia.
      apply (IHk (S d) st am lm m c cn orc); auto. lia.
    + change (NULL_OFF =? NULL_OFF) with true. cbn [negb].
      rewrite (n_idx _ _ _ _ N). fold (pidx h (S d)).
      change (child_index_of (pidx h d) (hord h d)) with (pidx h (S d)).
      pose proof (t_idx _ _ _ T _ _ Ha) as (Pd & _). pose proof (hord_range h d) as Ho.
      destruct (i_last _ _ _ _ I) as (L1 & _ & L3).
      { intros E. destruct (tree_empty _ _ _ T E) as (Q & _). congruence. }
      destruct (index_valid_depth (pidx h (S d))) eqn:V; cbn [negb].
      2:{ right. split; auto. left. split; auto. intros (RB & _).
          assert (pidx h d <= d_last st) by (apply L3; congruence).
          assert (B : 2 <= pidx h (S d) <= DTREE_INDEX_MAX).
          { cbn [pidx]. unfold child_index_of, DTREE_INDEX_MAX, room_below in *. lia. }
          unfold index_valid_depth, index_isvalid in V.
          rewrite pidx_depth in V by lia. unfold DTREE_DEPTH_MAX in V. lia. }
      unfold spawn_setup. destruct (spawn st orc) as [[ca|] r] eqn:SP.
      2:{ right. split; auto. left. split; auto. intros (_ & ca & r' & -> & F).
          rewrite spawn_fresh in SP by auto. discriminate. }
      destruct (spawn_some _ _ _ _ SP) as ((Hca & Hca0) & _).
      assert (Hcaa : ca <> a) by congruence.
      cbn [set_node d_nodes set_last]. rewrite fset_other, fset_same by auto.
      unfold dtn_depth at 1. cbn [dtn_setup dn_index]. rewrite pidx_depth by lia.
      replace (Z.of_nat d + 1 =? Z.of_nat (S d)) with true by lia.
      destruct L as (La & Lb).
      rewrite add_loop_S; rewrite may_insert_fresh by lia;
        (left; split; [reflexivity|]; split; [reflexivity|]; split; [reflexivity|]).
      all: assert (Pm : pidx h (S d) <= DTREE_INDEX_MAX) by
             (unfold index_valid_depth, index_isvalid in V; lia).
      all: pose proof (inv_spawn st am lm m (pidx h d) a n (hord h d) ca I Ha Hn Ho C Pm Hca Hca0) as I2.
      all: change (child_index_of (pidx h d) (hord h d)) with (pidx h (S d)) in I2.
      all: do 2 eexists; split;
        [rewrite Ev; refine (inv_insert _ _ _ m (S d) ca (dtn_setup (pidx h (S d)) a) e0 I2 _ _ _ _ Hok Hab _ Hmx)|].
      all: try (change (e_hash e0) with h; rewrite fset_same; reflexivity).
      all: try (cbn [set_node set_last d_nodes]; rewrite fset_other, fset_same by auto; reflexivity).
      all: try lia; auto.
      all: try (apply may_insert_fresh; cbn; lia).
      all: split; [|intros i Hi; destruct (Z.eq_dec i (pidx h (S d))) as [->|];
                      [rewrite fset_same; discriminate|rewrite fset_other by auto; auto]].
      all: intros i s e S; apply sits_insert; [change (e_hash e0) with h; rewrite fset_same; discriminate|left].
      all: destruct S as (S1 & S2); split; destruct (Z.eq_dec i (pidx h (S d))) as [->|];
        rewrite ?fset_same, ?fset_other by auto; auto; congruence.
Qed.

(* what holds between operations; nl0 is the link count without sub-directories *)
Variable nl0 : Z.
Hypothesis nl0_range : 0 <= nl0 <= 2 ^ 32.
Definition ndirs (m : list (bytes * (Z * Z))) : Z := zlen (filter (fun p => snd (snd p) =? DT_DIR) m).
Definition dinv (st : dirst) (am : amap) (lm : lmap) (m : list (bytes * (Z * Z))) : Prop :=
  inv st am lm m /\ (m = [] -> am 1 = None) /\ d_nlink st = nl0 + ndirs m.

Lemma dinv_new : forall seed nodes, (forall a, nodes a = None) ->
  dinv (dir_setup seed nl0 nodes) (fun _ => None) (fun _ => []) [].
Proof. intros. split; [apply inv_new; auto|]. split; auto. cbn [dir_setup d_nlink ndirs filter]. change (ndirs []) with 0. lia. Qed.

Lemma ndirs_bound : forall m, 0 <= ndirs m <= zlen m.
Proof.
  unfold ndirs. induction m as [|p m IH]; cbn [filter]; [cbn; lia|].
  destruct (snd (snd p) =? DT_DIR); rewrite ?zlen_cons; lia.
Qed.
Lemma ndirs_cons : forall p m, ndirs (p :: m) = (if snd (snd p) =? DT_DIR then 1 else 0) + ndirs m.
Proof. intros. unfold ndirs. cbn [filter]. destruct (snd (snd p) =? DT_DIR); rewrite ?zlen_cons; lia. Qed.

Lemma update_nlink_frame : forall st dt k,
  d_seed (update_nlink st dt k) = d_seed st /\ d_root (update_nlink st dt k) = d_root st /\
  d_last (update_nlink st dt k) = d_last st /\ d_ndents (update_nlink st dt k) = d_ndents st /\
  d_nodes (update_nlink st dt k) = d_nodes st.
Proof. intros. unfold update_nlink. destruct (dt =? DT_DIR); repeat split. Qed.

Lemma inv_nlink : forall st am lm m dt k, inv st am lm m -> inv (update_nlink st dt k) am lm m.
Proof.
  intros st am lm m dt k I. destruct (update_nlink_frame st dt k) as (F1 & F2 & F3 & F4 & F5).
  destruct I as [I1 I2 I3 I4 I5 I6 I7 I8 I9 I10].
  constructor; rewrite ?F1, ?F2, ?F3, ?F4, ?F5; auto.
Qed.

Lemma inv_root : forall st am lm m a, inv st am lm m -> am 1 = None -> fresh st a ->
  inv (set_root (set_last (set_node st a (dtn_setup 1 NULL_OFF)) (last_index_add (d_last st) 1)) a)
      (fset am 1 (Some a)) (fset lm 1 []) m.
Proof.
  intros st am lm m a I A1 (Hf & Ha). pose proof (i_tree _ _ _ _ I) as T.
  destruct (tree_empty _ _ _ T A1) as (Em & En).
  assert (Sno : forall j t g, ~ sits am lm j t g) by (intros j t g (Q & _); apply Q; apply Em).
  assert (Sno' : forall j t g, ~ sits (fset am 1 (Some a)) (fset lm 1 []) j t g).
  { intros j t g (Q1 & Q2). destruct (Z.eq_dec j 1) as [->|].
    - rewrite fset_same in Q2. destruct t; discriminate.
    - rewrite fset_other in Q1 by auto. apply Q1. apply Em. }
  constructor; cbn [set_root set_last set_node d_nodes d_root d_last d_ndents d_seed].
  - apply tree_root; auto.
  - rewrite fset_same. reflexivity.
  - rewrite fset_same. discriminate.
  - intros _. rewrite fset_same. unfold DTREE_INDEX_MAX. split; [lia|]. split; [discriminate|].
    intros i Hi. destruct (Z.eq_dec i 1) as [->|]; [lia|]. rewrite fset_other, Em in Hi by auto. congruence.
  - apply (i_nod _ _ _ _ I).
  - apply (i_cnt _ _ _ _ I).
  - apply (i_max _ _ _ _ I).
  - intros nm v. rewrite (i_in _ _ _ _ I). split; intros (j & t & g & G & _); exfalso; [apply (Sno j t g G)|apply (Sno' j t g G)].
  - intros j t g j' t' g' G. exfalso. apply (Sno' _ _ _ G).
  - intros j t g G. exfalso. apply (Sno' _ _ _ G).
Qed.

Lemma nlink_after_add : forall st m name ino dt, d_nlink st = nl0 + ndirs m -> zlen m < DIR_ENTRIES_MAX ->
  d_nlink (update_nlink st dt 1) = nl0 + ndirs ((name, (ino, dt)) :: m).
Proof.
  intros st m name ino dt H L. rewrite ndirs_cons. cbn [snd]. pose proof (ndirs_bound m).
  unfold update_nlink. unfold DIR_ENTRIES_MAX, DTREE_INDEX_MAX in *.
  destruct (dt =? DT_DIR); cbn [d_nlink]; rewrite H; [unfold u64|]; lia.
Qed.

Lemma add_dentry_ok : forall st am lm m name ino dt orc, dinv st am lm m ->
  legal_name name -> 0 < ino < 2 ^ 64 -> 0 <= dt < 256 ->
  ~ In name (map fst m) -> zlen m < DIR_ENTRIES_MAX ->
  let '(e, st') := add_dentry st name (hashf (d_seed st) name) ino dt orc in
  (e = DOk /\ d_seed st' = d_seed st /\
   exists am' lm', dinv st' am' lm' ((name, (ino, dt)) :: m) /\ kept am lm am' lm') \/
  (st' = st /\ ((e = DNoSpc /\ ~ (room_below (d_last st) /\ exists ca r, orc = Some ca :: r /\ fresh st ca)) \/
                (e = DFatal /\ 266306 <= d_last st))).
Proof.
  intros st am lm m name ino dt orc (I & Em & Nl) L Hi Hd Hab Hmx. unfold add_dentry.
  pose proof (i_tree _ _ _ _ I) as T. rewrite (i_root _ _ _ _ I).
  destruct (am 1) as [r|] eqn:R; cbn [aoff].
  - destruct (am_child_range _ _ _ T _ _ R) as (_ & Rn). destruct (Z.eqb_spec r NULL_OFF); [congruence|]. cbn [negb].
    destruct (t_node _ _ _ T _ _ R) as (rn & Hrn & RN). rewrite Hrn.
    destruct (rounds_root rn (n_idx _ _ _ _ RN)) as (-> & ->).
    pose proof (add_loop_ok name (hashf (d_seed st) name) ino dt (ino, dt) eq_refl L Hi Hd 4 0 st am lm m r rn orc
      eq_refl I eq_refl Hab Hmx R Hrn) as Q.
    destruct (add_loop 5 st r rn (Z.of_nat 0) name (hashf (d_seed st) name) ino dt orc) as [e st'].
    destruct Q as [(-> & Q2 & Q2' & am' & lm' & Q3 & Q4)|Q].
    2:{ destruct Q as (-> & [(-> & Q)|(-> & Q)]); cbn [finish_add]; right; auto. }
    cbn [finish_add]. left. destruct (update_nlink_frame st' dt 1) as (F1 & _). rewrite F1.
    split; auto. split; auto. exists am', lm'. split; auto.
    split; [apply inv_nlink; auto|]. split; [discriminate|].
    rewrite (nlink_after_add st' m name ino dt); auto; lia.
  - change (NULL_OFF =? NULL_OFF) with true. cbn [negb]. unfold spawn_setup.
    destruct (spawn st orc) as [[a|] r] eqn:SP.
    + destruct (spawn_some _ _ _ _ SP) as (F & _).
      pose proof (inv_root st am lm m a I R F) as I2.
      cbn [set_root set_last set_node d_nodes]. rewrite fset_same.
      destruct (rounds_root (dtn_setup 1 NULL_OFF) eq_refl) as (-> & ->).
      rewrite add_loop_S. destruct L as (La & Lb). rewrite may_insert_fresh by lia.
      cbn [finish_add]. left. split; [reflexivity|].
      match goal with |- context [update_nlink ?x dt 1] => destruct (update_nlink_frame x dt 1) as (F1 & _); rewrite F1 end.
      split; [reflexivity|].
      do 2 eexists. split; [split; [|split; [discriminate|]]|].
      * apply inv_nlink. refine (inv_insert _ _ _ m 0 a (dtn_setup 1 NULL_OFF) (mkDent ino dt (hashf (d_seed st) name) name) I2 _ _ _ _ _ Hab _ Hmx).
        -- lia.
        -- cbn [pidx]. apply fset_same.
        -- cbn [set_root set_last set_node d_nodes]. apply fset_same.
        -- reflexivity.
        -- unfold dent_ok, elen. cbn [e_ino e_dt e_name]. lia.
        -- apply may_insert_fresh. cbn [e_name]. lia.
      * rewrite (nlink_after_add _ m name ino dt); auto; lia.
      * destruct (tree_empty _ _ _ T R) as (Q & _). split; [intros i s e (S1 & _)|intros i S1]; exfalso; apply S1; apply Q.
    + right. split; auto. left. split; auto. intros (_ & ca & r' & -> & F).
      rewrite spawn_fresh in SP by auto. discriminate.
Qed.

(* ---- removing ---- *)
Lemma sits_remove : forall am lm i s j t g,
  sits am (fset lm i (slots_remove (lm i) s)) j t g <-> (sits am lm j t g /\ ~ (j = i /\ t = s)).
Proof.
  intros am lm i s j t g. unfold sits. destruct (Z.eq_dec j i) as [->|Hj].
  - rewrite fset_same. unfold slots_remove. rewrite slots_trim_nth, upd_nth.
    destruct (Nat.eqb_spec t s).
    + split; [intros (_ & E); discriminate|]. intros (_ & Q). exfalso. apply Q. auto.
    + split; [intros Q; split; auto; intros (_ & E); auto|]. intros (Q & _). exact Q.
  - rewrite fset_other by auto. split; [intros Q; split; auto; intros (E & _); auto|]. intros (Q & _). exact Q.
Qed.

Definition del (name : bytes) (m : list (bytes * (Z * Z))) : list (bytes * (Z * Z)) :=
  filter (fun p => negb (bytes_eqb (fst p) name)) m.

Lemma bytes_eqb_neq : forall a b, a <> b -> bytes_eqb a b = false.
Proof. intros a b H. destruct (bytes_eqb a b) eqn:E; auto. apply bytes_eqb_eq in E. congruence. Qed.

Lemma del_absent : forall name m, ~ In name (map fst m) -> del name m = m.
Proof.
  induction m as [|p m IH]; intros H; cbn [del filter map] in *; auto.
  rewrite bytes_eqb_neq; [cbn [negb]; f_equal; apply IH; intros Q; apply H; right; auto|].
  intros E. apply H. left. auto.
Qed.
Lemma del_len : forall name m, NoDup (map fst m) -> In name (map fst m) -> zlen (del name m) = zlen m - 1.
Proof.
  induction m as [|p m IH]; intros N H; [contradiction|]. cbn [map] in *. inversion N; subst.
  cbn [del filter]. destruct (bytes_eqb (fst p) name) eqn:E; cbn [negb].
  - apply bytes_eqb_eq in E. fold (del name m). rewrite del_absent by congruence. rewrite zlen_cons. lia.
  - rewrite !zlen_cons. fold (del name m). rewrite IH; auto; [lia|].
    destruct H as [H|H]; auto. rewrite H, bytes_eqb_refl in E. discriminate.
Qed.
Lemma del_in : forall name m nm v, In (nm, v) (del name m) <-> In (nm, v) m /\ nm <> name.
Proof.
  intros. unfold del. rewrite filter_In. cbn [fst]. split; intros (H1 & H2); split; auto.
  - intros ->. rewrite bytes_eqb_refl in H2. discriminate.
  - rewrite bytes_eqb_neq by auto. reflexivity.
Qed.
Lemma del_nodup : forall name m, NoDup (map fst m) -> NoDup (map fst (del name m)).
Proof.
  induction m as [|p m IH]; intros N; cbn [del filter map] in *; auto. inversion N; subst.
  destruct (negb (bytes_eqb (fst p) name)); [|apply IH; auto]. cbn [map]. constructor; [|apply IH; auto].
  intros Q. apply H1. apply in_map_iff in Q. destruct Q as ((a & b) & Q1 & Q2).
  apply filter_In in Q2. apply in_map_iff. exists (a, b). tauto.
Qed.

Lemma inv_remove : forall st am lm m i s e a n, inv st am lm m -> sits am lm i s e -> am i = Some a ->
  d_nodes st a = Some n ->
  inv (set_ndents (set_node st a (dtn_remove n s)) (d_ndents st - 1)) am
      (fset lm i (slots_remove (lm i) s)) (del (e_name e) m).
Proof.
  intros st am lm m i s e a n I S Ha Hn. pose proof (i_tree _ _ _ _ I) as T.
  destruct (t_node _ _ _ T _ _ Ha) as (n0 & Hn0 & N). rewrite Hn in Hn0. inversion Hn0; subst n0.
  destruct (n_rep _ _ _ _ N) as (pos & R). destruct S as (S1 & S2).
  pose proof (rep_remove n _ pos s e R S2) as R'.
  destruct (remove_frame n s) as (F1 & F2 & F3 & F4).
  assert (S : sits am lm i s e) by (split; auto).
  assert (M : In (e_name e, (e_ino e, e_dt e)) m) by (apply (i_in _ _ _ _ I); eauto 6).
  assert (M' : In (e_name e) (map fst m)) by (apply in_map_iff; exists (e_name e, (e_ino e, e_dt e)); auto).
  pose proof (del_len _ _ (i_nod _ _ _ _ I) M') as DL.
  pose proof (i_max _ _ _ _ I) as MX. pose proof (zlen_nonneg _ (del (e_name e) m)).
  constructor; cbn [set_ndents set_node d_nodes d_root d_last d_ndents d_seed].
  - eapply tree_update; eauto.
  - apply (i_root _ _ _ _ I).
  - apply (i_last0 _ _ _ _ I).
  - apply (i_last _ _ _ _ I).
  - apply del_nodup. apply (i_nod _ _ _ _ I).
  - rewrite DL, (i_cnt _ _ _ _ I). unfold DIR_ENTRIES_MAX, DTREE_INDEX_MAX in *. unfold u64. lia.
  - lia.
  - intros nm v. rewrite del_in, (i_in _ _ _ _ I). split.
    + intros ((j & t & g & G & E1 & E2) & Hne). exists j, t, g. split; [|auto].
      apply sits_remove. split; auto. intros (-> & ->). destruct G as (_ & G). rewrite S2 in G.
      inversion G; subst. congruence.
    + intros (j & t & g & G & E1 & E2). apply sits_remove in G. destruct G as (G & Hne). split; [eauto 6|].
      intros ->. apply Hne. apply (i_uniq _ _ _ _ I _ _ _ _ _ _ G S). auto.
  - intros j t g j' t' g' G G'. apply sits_remove in G. apply sits_remove in G'.
    apply (i_uniq _ _ _ _ I); tauto.
  - intros j t g G. apply sits_remove in G. apply (i_place _ _ _ _ I j t g). tauto.
Qed.

(* ---- discarding the whole tree ---- *)
Inductive under (i : Z) : Z -> Prop :=
| u_refl : under i i
| u_step : forall j, 2 <= j -> under i (index_to_parent j) -> under i j.

Lemma under_depth : forall i j, under i j -> j <= 2 ^ 66 -> index_depth i <= index_depth j.
Proof.
  intros i j H. induction H; intros; [lia|]. pose proof (parent_pos j).
  rewrite (depth_parent j) by lia. lia.
Qed.
Lemma under_disj : forall i j, under i j -> forall i', under i' j -> index_depth i = index_depth i' ->
  j <= 2 ^ 66 -> i = i'.
Proof.
  intros i j H. induction H as [|j Hj H IH]; intros i' H' E B.
  - inversion H'; subst; auto. pose proof (parent_pos i H).
    pose proof (under_depth i' (index_to_parent i) H0 ltac:(lia)). rewrite (depth_parent i) in E by lia. lia.
  - pose proof (parent_pos j Hj). inversion H'; subst.
    + pose proof (under_depth i (index_to_parent j) H ltac:(lia)). rewrite (depth_parent j) in E by lia. lia.
    + apply IH; auto. lia.
Qed.
Lemma under_cases : forall i j, 1 <= i -> under i j -> j = i \/ exists o, 0 <= o < 64 /\ under (child_index_of i o) j.
Proof.
  intros i j Hi H. induction H as [|j Hj H IH]; [left; auto|]. right.
  destruct IH as [E|(o & Ho & U)].
  - exists (index_to_child_ord j). split; [apply ord_range; auto|]. rewrite <- E, child_of_parent by auto. constructor.
  - exists o. split; auto. apply u_step; auto.
Qed.
Lemma under_child : forall i o j, 1 <= i -> 0 <= o < 64 -> under (child_index_of i o) j -> under i j.
Proof.
  intros i o j Hi Ho H. induction H.
  - apply u_step; [apply child_ge2; lia|]. rewrite parent_of_child by lia. constructor.
  - apply u_step; auto.
Qed.
Lemma under_root : forall j, 1 <= j -> under 1 j.
Proof.
  assert (Q : forall k j, 1 <= j <= Z.of_nat k -> under 1 j).
  { induction k; intros j Hj; [lia|]. destruct (Z.eq_dec j 1) as [->|]; [constructor|].
    apply u_step; [lia|]. apply IHk. pose proof (parent_pos j). lia. }
  intros j Hj. apply (Q (Z.to_nat j)). lia.
Qed.

Section Discard.
Variables (nodes0 : Z -> option dnode) (am : amap) (lm : lmap).
Hypothesis T : tree nodes0 am lm.

Definition cut (P : Z -> Prop) (nd nd' : Z -> option dnode) : Prop :=
  (forall j b, am j = Some b -> P j -> nd' b = None) /\
  (forall b, (forall j, am j = Some b -> ~ P j) -> nd' b = nd b).
Definition intact (P : Z -> Prop) (nd : Z -> option dnode) : Prop :=
  forall j b, am j = Some b -> P j -> nd b = nodes0 b.

Lemma am_bound : forall j b, am j = Some b -> 1 <= j <= DTREE_INDEX_MAX.
Proof. intros j b H. apply (t_idx _ _ _ T _ _ H). Qed.

Lemma under_up : forall x y, under x y -> am y <> None -> am x <> None.
Proof.
  intros x y U. induction U as [|j Hj U IH]; intros A; auto. apply IH.
  destruct (t_up _ _ _ T j A); [lia|auto].
Qed.

Lemma discard_childs_ok : forall disc i n, 1 <= i <= DTREE_INDEX_MAX -> node_ok am lm i n ->
  (forall o c nd, 0 <= o < 64 -> am (child_index_of i o) = Some c -> intact (under (child_index_of i o)) nd ->
     exists nd', disc nd c = Some nd' /\ cut (under (child_index_of i o)) nd nd') ->
  forall cs o nd, 0 <= o -> o + zlen cs = 64 ->
  (forall k, (k < length cs)%nat -> nth k cs NULL_OFF = aoff (am (child_index_of i (o + Z.of_nat k)))) ->
  intact (fun j => exists o', o <= o' < 64 /\ under (child_index_of i o') j) nd ->
  exists nd', discard_childs disc cs (count_childs cs) nd = Some nd' /\
    cut (fun j => exists o', o <= o' < 64 /\ under (child_index_of i o') j) nd nd'.
Proof.
  intros disc i n Hi N D. induction cs as [|c cs IH]; intros o nd Ho Hl Hc Hin.
  - exists nd. split; [reflexivity|]. rewrite zlen_nil in Hl. split; auto.
    intros j b _ (o' & Q & _). lia.
  - rewrite zlen_cons in Hl. pose proof (zlen_nonneg _ cs) as Zc.
    pose proof (Hc O ltac:(cbn; lia)) as H0. cbn [nth] in H0. replace (o + Z.of_nat 0) with o in H0 by lia.
    assert (Hc' : forall k, (k < length cs)%nat -> nth k cs NULL_OFF = aoff (am (child_index_of i (o + 1 + Z.of_nat k)))).
    { intros k Hk. specialize (Hc (S k) ltac:(cbn; lia)). cbn [nth] in Hc.
      replace (o + 1 + Z.of_nat k) with (o + Z.of_nat (S k)) by lia. exact Hc. }
    cbn [discard_childs]. destruct (Z.eqb_spec (count_childs (c :: cs)) 0) as [Z0|Z0].
    + (* nothing left *)
      exists nd. split; [reflexivity|]. split; auto.
      intros j b Hb (o' & Ho' & U). exfalso.
      assert (AllN : forall x, In x (c :: cs) -> x = NULL_OFF).
      { apply count_zero. exact Z0. }
      assert (E : aoff (am (child_index_of i o')) = NULL_OFF).
      { specialize (Hc (Z.to_nat (o' - o))). replace (o + Z.of_nat (Z.to_nat (o' - o))) with o' in Hc by lia.
        assert (L : (Z.to_nat (o' - o) < length (c :: cs))%nat) by (cbn [length]; unfold zlen in *; lia).
        rewrite <- Hc by exact L. apply AllN. apply nth_In. exact L. }
      apply (aoff_null _ _ _ T) in E.
      apply (under_up _ _ U); congruence.
    + destruct (Z.eqb_spec c NULL_OFF) as [->|Hcn].
      * assert (A0 : am (child_index_of i o) = None) by (apply (aoff_null _ _ _ T); congruence).
        assert (C0 : count_childs (NULL_OFF :: cs) = count_childs cs) by reflexivity.
        rewrite C0. destruct (IH (o + 1) nd) as (nd' & E & C1 & C2); auto; try lia.
        { intros j b Hb (o' & Ho' & U). apply (Hin j b Hb). exists o'. split; auto. lia. }
        exists nd'. split; auto. 
        assert (NU : forall j b, am j = Some b -> ~ under (child_index_of i o) j).
        { intros j b Hb U.
          apply (under_up _ _ U); congruence. }
        split.
        -- intros j b Hb (o' & Ho' & U). destruct (Z.eq_dec o' o) as [->|]; [exfalso; eapply NU; eauto|].
           apply (C1 j b Hb). exists o'. split; auto. lia.
        -- intros b Hb. apply C2. intros j Hj (o' & Ho' & U). apply (Hb j Hj). exists o'. split; auto. lia.
      * assert (A0 : am (child_index_of i o) = Some c).
        { destruct (am (child_index_of i o)) as [x|]; cbn [aoff] in H0; congruence. }
        destruct (D o c nd) as (nd1 & E1 & C11 & C12); auto; [lia| |].
        { intros j b Hb U. apply (Hin j b Hb). exists o. split; auto. lia. }
        rewrite E1.
        assert (C0 : u32 (count_childs (c :: cs) - 1) = count_childs cs).
        { unfold count_childs. cbn [map]. rewrite zsum_cons. destruct (Z.eqb_spec c NULL_OFF); [congruence|].
          pose proof (count_bound cs) as CB. unfold count_childs in CB. unfold u32. lia. }
        rewrite C0.
        assert (Dj : forall j b o', am j = Some b -> o + 1 <= o' < 64 -> under (child_index_of i o') j ->
                     ~ under (child_index_of i o) j).
        { intros j b o' Hb Ho' U U'. pose proof (am_bound _ _ Hb). unfold DTREE_INDEX_MAX in *.
          assert (E : child_index_of i o' = child_index_of i o).
          { apply (under_disj _ j U _ U'); [rewrite !depth_child by lia; reflexivity|lia]. }
          unfold child_index_of in E. lia. }
        destruct (IH (o + 1) nd1) as (nd' & E & C1 & C2); auto; try lia.
        { intros j b Hb (o' & Ho' & U). rewrite C12.
          - apply (Hin j b Hb). exists o'. split; auto. lia.
          - intros k Hk. replace k with j by (eapply (t_inj _ _ _ T); eauto). eapply Dj; eauto. }
        exists nd'. split; auto. split.
        -- intros j b Hb (o' & Ho' & U). destruct (Z.eq_dec o' o) as [->|Hne].
           ++ rewrite C2; [apply (C11 j b Hb U)|]. intros k Hk (o2 & Ho2 & U2).
              assert (k = j) by (eapply (t_inj _ _ _ T); eauto). subst k. eapply Dj; eauto.
           ++ apply (C1 j b Hb). exists o'. split; auto. lia.
        -- intros b Hb. rewrite C2.
           ++ apply C12. intros j Hj U. apply (Hb j Hj). exists o. split; auto. lia.
           ++ intros j Hj (o' & Ho' & U). apply (Hb j Hj). exists o'. split; auto. lia.
Qed.

Lemma discard_ok : forall f i a nd, am i = Some a -> Z.of_nat f + index_depth i >= 6 ->
  intact (under i) nd ->
  exists nd', discard f nd a = Some nd' /\ cut (under i) nd nd'.
Proof.
  induction f; intros i a nd Ha Hf Hin.
  { pose proof (am_bound _ _ Ha). pose proof (depth_le4 i). lia. }
  pose proof (am_bound _ _ Ha) as Bi. cbn [discard].
  destruct (t_node _ _ _ T _ _ Ha) as (n & Hn & N).
  assert (Hna : nd a = Some n) by (rewrite (Hin i a Ha); [auto|constructor]). rewrite Hna.
  destruct (discard_childs_ok (discard f) i n Bi N) with (cs := dn_child n) (o := 0) (nd := nd)
    as (nd1 & E1 & C1 & C2).
  - intros o c nd0 Ho Hc H0. apply IHf; auto. unfold DTREE_INDEX_MAX in *. rewrite depth_child by lia. lia.
  - lia.
  - unfold zlen. rewrite (n_len _ _ _ _ N). lia.
  - intros k Hk. rewrite (n_len _ _ _ _ N) in Hk. rewrite <- (n_chd _ _ _ _ N) by lia.
    unfold dtn_child. f_equal. lia.
  - intros j b Hb (o' & Ho' & U). apply (Hin j b Hb). apply (under_child i o'); auto; lia.
  - rewrite (n_act _ _ _ _ N), E1. eexists. split; [reflexivity|]. split.
    + intros j b Hb U. destruct (Z.eq_dec b a) as [->|Hba]; [apply fset_same|].
      rewrite fset_other by auto. destruct (under_cases i j ltac:(lia) U) as [->|(o & Ho & U2)]; [congruence|].
      apply (C1 j b Hb). exists o. split; auto.
    + intros b Hb. assert (b <> a) by (intros ->; apply (Hb i Ha); constructor).
      rewrite fset_other by auto. apply C2. intros j Hj (o' & Ho' & U). apply (Hb j Hj).
      apply (under_child i o'); auto; lia.
Qed.

Lemma discard_all : forall a, am 1 = Some a ->
  exists nd', discard 8 nodes0 a = Some nd' /\ forall b, nd' b = None.
Proof.
  intros a Ha. destruct (discard_ok 8 1 a nodes0 Ha) as (nd' & E & C1 & C2).
  - rewrite depth_one by lia. lia.
  - intros j b _ _. reflexivity.
  - exists nd'. split; auto. intros b. destruct (nodes0 b) as [n|] eqn:Eb.
    + destruct (t_all _ _ _ T _ _ Eb) as (j & Hj). apply (C1 j b Hj). apply under_root.
      apply (am_bound _ _ Hj).
    + rewrite C2; auto. intros j Hj _. destruct (t_node _ _ _ T _ _ Hj) as (n & Hn & _). congruence.
Qed.
End Discard.

Lemma ndirs_del : forall name v m, NoDup (map fst m) -> In (name, v) m ->
  ndirs (del name m) = ndirs m - (if snd v =? DT_DIR then 1 else 0).
Proof.
  intros name v. induction m as [|p m IH]; intros N H; [contradiction|]. cbn [map] in N. inversion N; subst.
  cbn [del filter]. rewrite ndirs_cons. destruct (bytes_eqb (fst p) name) eqn:E; cbn [negb].
  - apply bytes_eqb_eq in E. fold (del name m). rewrite del_absent by congruence.
    destruct H as [->|H]; [cbn [snd]; lia|]. exfalso. apply H2. rewrite E. apply in_map_iff. exists (name, v). auto.
  - fold (del name m). rewrite ndirs_cons. destruct H as [->|H]; [rewrite bytes_eqb_refl in E; discriminate|].
    rewrite IH by auto. lia.
Qed.

Lemma remove_dentry_ok : forall st am lm m name v seed, dinv st am lm m -> legal_name name -> In (name, v) m ->
  let '(e, st') := remove_dentry st name (hashf (d_seed st) name) seed in
  e = DOk /\
  ((del name m <> [] /\ d_seed st' = d_seed st /\ exists lm', dinv st' am lm' (del name m) /\
       forall i s g, sits am lm i s g -> e_name g <> name -> sits am lm' i s g) \/
   (del name m = [] /\ d_seed st' = seed /\ d_root st' = NULL_OFF /\ d_last st' = 0 /\ d_ndents st' = 0 /\
       (forall a, d_nodes st' a = None) /\ dinv st' (fun _ => None) (fun _ => []) [])).
Proof.
  intros st am lm m name v seed (I & Em & Nl) L M. unfold remove_dentry.
  apply (i_in _ _ _ _ I) in M. destruct M as (i & s & e & S & E1 & E2). subst name.
  destruct (lookup_dei_present st am lm m i s e I S L) as (b & Hb & ->).
  pose proof (i_tree _ _ _ _ I) as T. destruct (t_node _ _ _ T _ _ Hb) as (n & Hn & N). rewrite Hn.
  pose proof (inv_remove st am lm m i s e b n I S Hb Hn) as I2.
  destruct (n_rep _ _ _ _ N) as (pos & R). destruct S as (S1 & S2).
  destruct (rep_fields _ _ _ R s e S2) as (_ & -> & _).
  assert (S : sits am lm i s e) by (split; auto).
  apply (inv_nlink _ _ _ _ (e_dt e) (-1)) in I2.
  assert (M : In (e_name e, (e_ino e, e_dt e)) m) by (apply (i_in _ _ _ _ I); eauto 6).
  assert (Nl2 : d_nlink (update_nlink (set_ndents (set_node st b (dtn_remove n s)) (d_ndents st - 1)) (e_dt e) (-1)) =
                nl0 + ndirs (del (e_name e) m)).
  { pose proof (ndirs_del _ _ _ (i_nod _ _ _ _ I) M) as D. cbn [snd] in D. pose proof (ndirs_bound (del (e_name e) m)).
    pose proof (i_max _ _ _ _ I). pose proof (ndirs_bound m).
    unfold update_nlink. unfold DIR_ENTRIES_MAX, DTREE_INDEX_MAX in *.
    destruct (e_dt e =? DT_DIR); cbn [d_nlink set_ndents set_node]; rewrite Nl; [unfold u64|]; lia. }
  destruct (update_nlink_frame (set_ndents (set_node st b (dtn_remove n s)) (d_ndents st - 1)) (e_dt e) (-1)) as (F1 & _).
  set (st1 := update_nlink (set_ndents (set_node st b (dtn_remove n s)) (d_ndents st - 1)) (e_dt e) (-1)) in *.
  pose proof (i_cnt _ _ _ _ I2) as CN. destruct (Z.eqb_spec (d_ndents st1) 0) as [Z0|Z0].
  - assert (D0 : del (e_name e) m = []).
    { destruct (del (e_name e) m) as [|x r] eqn:Ed; auto. rewrite zlen_cons in CN. pose proof (zlen_nonneg _ r). lia. }
    pose proof (i_tree _ _ _ _ I2) as T2.
    assert (A1 : am 1 <> None).
    { intros Q. destruct (tree_empty _ _ _ T2 Q) as (Q2 & _). congruence. }
    destruct (am 1) as [r|] eqn:R1; [|congruence].
    unfold drop_tree. rewrite (i_root _ _ _ _ I2), R1. cbn [aoff].
    destruct (am_child_range _ _ _ T2 _ _ R1) as (_ & Rn). destruct (Z.eqb_spec r NULL_OFF); [congruence|].
    destruct (discard_all _ _ _ T2 r R1) as (nd & -> & Nd). split; auto. right.
    split; auto. cbn [dir_setup d_seed d_root d_last d_ndents d_nodes]. repeat (split; [auto; reflexivity|]).
    rewrite Nl2, D0. change (ndirs []) with 0. rewrite Z.add_0_r. apply dinv_new. auto.
  - split; auto. left.
    assert (D0 : del (e_name e) m <> []) by (intros Q; rewrite Q in CN; apply Z0; rewrite CN; reflexivity).
    split; auto. split; [exact F1|]. eexists. split; [split; [exact I2|split; [congruence|exact Nl2]]|].
    intros j t g G Hne. apply sits_remove. split; auto. intros (-> & ->). destruct G as (_ & G), S as (_ & S).
    rewrite S in G. inversion G; subst. congruence.
Qed.
End Hash.

(* ---- a node found again by its index ---- *)
Section Walk.
Variables (st : dirst) (am : amap) (lm : lmap).
Hypothesis T : tree (d_nodes st) am lm.

Lemma walk_app : forall p q n, walk_path st n (p ++ q) =
  match walk_path st n p with SNode m => walk_path st m q | SErr e => SErr e end.
Proof.
  induction p as [|o p IH]; intros q n; cbn [app walk_path]; auto.
  destruct (o <? 64); auto. destruct (dtn_child n o =? NULL_OFF); auto.
  destruct (d_nodes st (dtn_child n o)); auto.
Qed.

Lemma walk_ok : forall r rn, am 1 = Some r -> d_nodes st r = Some rn ->
  forall k i, 1 <= i <= 2 ^ 66 -> index_depth i = Z.of_nat k ->
  match am i with
  | Some a => exists n, d_nodes st a = Some n /\ walk_path st rn (index_path k i) = SNode n
  | None => walk_path st rn (index_path k i) = SErr DNoEnt
  end.
Proof.
  intros r rn Hr Hrn. induction k; intros i Hi Hk.
  - assert (i = 1). { destruct (depth_le0 i); lia. } subst i. rewrite Hr. exists rn. auto.
  - assert (Hi2 : 2 <= i). { destruct (Z.eq_dec i 1); [|lia]. subst. rewrite depth_one in Hk; lia. }
    rewrite depth_parent in Hk by lia. pose proof (parent_pos i Hi2) as Pp.
    specialize (IHk (index_to_parent i) ltac:(lia) ltac:(lia)).
    cbn [index_path]. rewrite walk_app.
    destruct (am (index_to_parent i)) as [p|] eqn:P.
    + destruct IHk as (pn & Hpn & ->). cbn [walk_path]. pose proof (ord_range i Hi2) as Ho.
      destruct (Z.ltb_spec (index_to_child_ord i) 64); [|lia].
      destruct (t_node _ _ _ T _ _ P) as (pn' & Hpn' & N). rewrite Hpn in Hpn'. inversion Hpn'; subst pn'.
      rewrite (n_chd _ _ _ _ N) by auto. rewrite child_of_parent by auto.
      destruct (am i) as [a|] eqn:A; cbn [aoff].
      * destruct (t_idx _ _ _ T _ _ A). assert (a <> NULL_OFF) by (unfold NULL_OFF; lia). destruct (Z.eqb_spec a NULL_OFF); [congruence|].
        destruct (t_node _ _ _ T _ _ A) as (n0 & Hn & _). exists n0. rewrite Hn. auto.
      * reflexivity.
    + rewrite IHk. destruct (am i) as [a|] eqn:A; auto.
      destruct (t_up _ _ _ T i) as [|Q]; [congruence|lia|congruence].
Qed.

Lemma stage_ok : forall r rn i, am 1 = Some r -> d_nodes st r = Some rn -> 1 <= i <= 2 ^ 66 ->
  match am i with
  | Some a => exists n, d_nodes st a = Some n /\
                stage_by_index st rn i = if i <=? 266305 then SNode n else SErr DNoEnt
  | None => stage_by_index st rn i = SErr DNoEnt
  end.
Proof.
  intros r rn i Hr Hrn Hi. unfold stage_by_index, DTREE_DEPTH_MAX. pose proof (depth_nonneg i).
  destruct (depth_le3 i) as (D1 & D2); [lia|].
  pose proof (walk_ok r rn Hr Hrn (Z.to_nat (index_depth i)) i Hi ltac:(lia)) as W.
  destruct (Z.leb_spec 4 (index_depth i)); destruct (Z.leb_spec i 266305); try lia.
  - destruct (am i) as [a|] eqn:A; auto. destruct (t_node _ _ _ T _ _ A) as (n & Hn & _). exists n. auto.
  - exact W.
Qed.
End Walk.
