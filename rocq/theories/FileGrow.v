(* Triples for making the tree higher and for making the nodes on the way to an offset *)
From Verif Require Import Base AddrModel FileModel FileTree FileInv FileSpec FileLeaf FileRead.

(* ---- walks ---- *)

Lemma walk_fuel : forall W off, tree_inv W -> forall d d' a n, w_node W a = Some n -> n_height n <= Z.of_nat d + 1 -> n_height n <= Z.of_nat d' + 1 ->
  walk d W a off = walk d' W a off.
Proof.
  intros W off T. induction d as [|d IH]; intros d' a n Ha H H'.
  - destruct (ti_shape W T a n Ha) as [_ Sn]. pose proof (sh_h n Sn). lia.
  - destruct (ti_shape W T a n Ha) as [_ Sn]. pose proof (sh_h n Sn). destruct d' as [|d']; [lia|].
    rewrite !walk_S, Ha. destruct (n_inrange n off) eqn:R; [|reflexivity]. destruct (n_height n <=? 2) eqn:B; [reflexivity|].
    destruct (child_at n (slot_of n off)) as [[t c]|] eqn:C; [|reflexivity]. apply child_at_some in C. destruct C as (Hc & _ & ->).
    apply inrange_iff in R. destruct (child_range W a n off T Ha ltac:(lia) R Hc) as (m & Hm & _ & Hh & _).
    apply (IH d' _ m Hm); lia.
Qed.
(* nodes of W are the same in W' *)
Lemma walk_ext : forall W W' off, tree_inv W -> (forall x n, w_node W x = Some n -> w_node W' x = Some n) ->
  forall d a n, w_node W a = Some n -> walk d W' a off = walk d W a off.
Proof.
  intros W W' off T X. induction d as [|d IH]; intros a n Ha; [reflexivity|].
  rewrite !walk_S, Ha, (X a n Ha). destruct (n_inrange n off) eqn:R; [|reflexivity].
  destruct (ti_shape W T a n Ha) as [_ Sn]. pose proof (sh_h n Sn). apply inrange_iff in R.
  destruct (n_height n <=? 2) eqn:B; [reflexivity|].
  destruct (child_at n (slot_of n off)) as [[t c]|] eqn:C; [|reflexivity]. apply child_at_some in C. destruct C as (Hc & _ & ->).
  destruct (child_range W a n off T Ha ltac:(lia) R Hc) as (m & Hm & _). apply (IH _ m Hm).
Qed.

(* ---- a new root ---- *)

Definition old_root (f : finode) : Z := match fi_slot f 0 with Some (_, r) => r | None => OFF_NULL end.
Definition root_node (i h old : Z) : ftn := set_nref (assign_child (ftn_init i 0 h) 0 old) 1.
(* height of the tree of a file; 1: no tree *)
Definition has_height (W : world) (i h : Z) : Prop :=
  match fi_slot (w_ino W i) 0 with
  | None => h = 1
  | Some (_, r) => exists n, w_node W r = Some n /\ n_height n = h
  end.
Record NewRoot (W W' : world) (i h a : Z) : Prop := mkNR {
  nr_free : w_node W a = None;
  nr_pos : 0 <= a;
  nr_h : 2 <= h <= 5;
  nr_old : has_height W i (h - 1);
  nr_node : forall x, w_node W' x = if x =? a then Some (root_node i h (old_root (w_ino W i))) else w_node W x;
  nr_oth : forall j, j <> i -> w_ino W' j = w_ino W j;
  nr_ino : w_ino W' i = fi_set_slot (w_ino W i) 0 (Some (LT_FTNODE, a));
  nr_blk : forall t x, w_blk W' t x = w_blk W t x }.

Lemma init_beg0 : forall i h, n_beg (ftn_init i 0 h) = 0.
Proof. reflexivity. Qed.
Lemma root_shape : forall i h old, 2 <= h <= 5 -> shape (root_node i h old).
Proof.
  intros i h old H. constructor; cbn [root_node set_nref assign_child ftn_init n_height n_beg n_end n_ctype]; try reflexivity; try lia.
Qed.
Lemma root_child : forall i h old s, n_child (root_node i h old) s = if s =? 0 then (if off_isnull old then OFF_NULL else old) else OFF_NULL.
Proof. intros. unfold root_node, set_nref. cbn [n_child]. rewrite assign_child_at. reflexivity. Qed.
Lemma kept_node : forall W W' i h a, NewRoot W W' i h a -> forall x n, w_node W x = Some n -> w_node W' x = Some n /\ x <> a.
Proof.
  intros W W' i h a N x n H. assert (x <> a) by (intros ->; rewrite (nr_free _ _ _ _ _ N) in H; discriminate).
  rewrite (nr_node _ _ _ _ _ N). replace (x =? a) with false by lia. auto.
Qed.
Lemma old_cases : forall W i h, tree_inv W -> 2 <= h -> has_height W i (h - 1) ->
  (fi_slot (w_ino W i) 0 = None /\ h = 2 /\ old_root (w_ino W i) = OFF_NULL) \/
  (exists r n, fi_slot (w_ino W i) 0 = Some (LT_FTNODE, r) /\ w_node W r = Some n /\ n_height n = h - 1 /\ 3 <= h /\ n_ino n = i /\ n_beg n = 0 /\
               0 <= r /\ old_root (w_ino W i) = r).
Proof.
  intros W i h T H2 H. unfold has_height, old_root in *. destruct (fi_slot (w_ino W i) 0) as [[t r]|] eqn:E.
  - right. destruct H as (n & Hn & Hh). destruct (ti_root W T i t r E) as (-> & n' & Hn' & In & Hb). assert (n' = n) by congruence. subst n'.
    destruct (ti_shape W T r n Hn) as [P Sh]. pose proof (sh_h n Sh). exists r, n. repeat split; auto. lia.
  - left. repeat split. lia.
Qed.
Lemma root_tree_inv : forall W W' i h a, tree_inv W -> NewRoot W W' i h a -> tree_inv W'.
Proof.
  intros W W' i h a T N. pose proof (kept_node W W' i h a N) as Kn.
  destruct N as [Fr P Hh Ol Nd Ot In Bl].
  pose proof (old_cases W i h T ltac:(lia) Ol) as Oc. set (o := old_root (w_ino W i)) in *.
  assert (Rc : forall s, 0 <= s < 1024 -> has_child (root_node i h o) s = true -> s = 0 /\ exists r n, fi_slot (w_ino W i) 0 = Some (LT_FTNODE, r) /\ w_node W r = Some n /\ n_height n = h - 1 /\ 3 <= h /\ n_ino n = i /\ n_beg n = 0 /\ n_child (root_node i h o) s = r).
  { intros s Hs Hc. apply has_child_iff in Hc. rewrite root_child in *. destruct (s =? 0) eqn:S0; [|unfold OFF_NULL in Hc; lia]. split; [lia|].
    destruct Oc as [(E & _ & Eo)|(r & n & E1 & E2 & E3 & E4 & E5 & E6 & E7 & E8)].
    - rewrite Eo in Hc. exfalso. revert Hc. cbn. unfold OFF_NULL. lia.
    - exists r, n. rewrite E8. unfold off_isnull. replace (r <? 0) with false by lia. repeat split; auto. }
  assert (Inn : forall x n, inner W' x n -> (x = a /\ n = root_node i h o /\ 3 <= h) \/ (x <> a /\ inner W x n)).
  { intros x n [Hx H3]. rewrite Nd in Hx. destruct (x =? a) eqn:X.
    - left. assert (n = root_node i h o) by congruence. subst n. split; [lia|]. split; [reflexivity|exact H3].
    - right. split; [lia|]. split; assumption. }
  assert (Nc : forall x n s, inner W x n -> 0 <= s < 1024 -> n_child n s <> a).
  { intros x n s Ix Hs E. destruct (has_child n s) eqn:C.
    - destruct (ti_child W T x n s Ix Hs C) as (m & Hm & _). rewrite E in Hm. congruence.
    - assert (0 <= n_child n s) by lia. apply has_child_iff in H. congruence. }
  constructor.
  - intros x n Hx. rewrite Nd in Hx. destruct (x =? a) eqn:X; [|apply (ti_shape W T x n Hx)].
    assert (n = root_node i h o) by congruence. subst n. split; [lia|apply root_shape, Hh].
  - intros x n s Ix Hs C. destruct (Inn x n Ix) as [(-> & -> & H3)|(Nx & Ix')].
    + destruct (Rc s Hs C) as (-> & r & n & E1 & E2 & E3 & E4 & E5 & E6 & E7). exists n. rewrite E7. split; [apply (Kn r n E2)|].
      repeat split; [exact E5|exact E3|rewrite E6; cbn; reflexivity].
    + destruct (ti_child W T x n s Ix' Hs C) as (m & Hm & X). exists m. split; [apply (Kn _ m Hm)|exact X].
  - intros x n s x' n' s' Ix Ix' Hs Hs' C E. destruct (Inn x n Ix) as [(-> & -> & H3)|(Nx & I1)]; destruct (Inn x' n' Ix') as [(-> & -> & H3')|(Nx' & I2)].
    + assert (C' : has_child (root_node i h o) s' = true) by (apply has_child_iff; apply has_child_iff in C; lia).
      destruct (Rc s Hs C) as (-> & _). destruct (Rc s' Hs' C') as (-> & _). auto.
    + exfalso. destruct (Rc s Hs C) as (-> & r & m & E1 & _ & _ & _ & _ & _ & E7).
      apply (ti_free W T i _ r x' n' s' E1 I2 Hs'). congruence.
    + exfalso. assert (C' : has_child (root_node i h o) s' = true) by (apply has_child_iff; apply has_child_iff in C; lia).
      destruct (Rc s' Hs' C') as (-> & r & m & E1 & _ & _ & _ & _ & _ & E7).
      apply (ti_free W T i _ r x n s E1 I1 Hs). congruence.
    + apply (ti_inj W T x n s x' n' s'); assumption.
  - intros j t r E. destruct (Z.eq_dec j i) as [->|Nj].
    + rewrite In in E. cbn [fi_set_slot fi_slot] in E. rewrite fset_same in E. assert (t = LT_FTNODE /\ r = a) as [-> ->] by (split; congruence).
      split; [reflexivity|]. exists (root_node i h o). rewrite Nd, Z.eqb_refl. repeat split.
    + rewrite (Ot j Nj) in E. destruct (ti_root W T j t r E) as (-> & n & Hn & X). split; [reflexivity|]. exists n. split; [apply (Kn r n Hn)|exact X].
  - intros j t r x n s E Ix Hs Ec. destruct (Inn x n Ix) as [(-> & -> & H3)|(Nx & I1)].
    + destruct (has_child (root_node i h o) s) eqn:C.
      * destruct (Rc s Hs C) as (-> & r0 & m & E1 & E2 & _ & _ & E5 & _ & E7). destruct (Z.eq_dec j i) as [->|Nj].
        -- rewrite In in E. cbn [fi_set_slot fi_slot] in E. rewrite fset_same in E. assert (r = a) by congruence. destruct (Kn r0 m E2). congruence.
        -- rewrite (Ot j Nj) in E. destruct (ti_root W T j t r E) as (_ & n & Hn & Inj & _). assert (r0 = r) by congruence. subst r0. assert (n = m) by congruence. subst n. congruence.
      * assert (X : 0 <= r).
        { destruct (Z.eq_dec j i) as [->|Nj].
          - rewrite In in E. cbn [fi_set_slot fi_slot] in E. rewrite fset_same in E. assert (r = a) by congruence. lia.
          - rewrite (Ot j Nj) in E. destruct (ti_root W T j t r E) as (_ & n & Hn & _). apply (ti_shape W T r n Hn). }
        rewrite <- Ec in X. apply has_child_iff in X. congruence.
    + destruct (Z.eq_dec j i) as [->|Nj].
      * rewrite In in E. cbn [fi_set_slot fi_slot] in E. rewrite fset_same in E. apply (Nc x n s I1 Hs). congruence.
      * rewrite (Ot j Nj) in E. apply (ti_free W T j t r x n s E I1 Hs Ec).
  - intros x n Hx. rewrite Nd in Hx. destruct (x =? a) eqn:X; [|apply (ti_nact W T x n Hx)].
    assert (n = root_node i h o) by congruence. subst n.
    change (n_nact (assign_child (ftn_init i 0 h) 0 o) = cnt (n_child (assign_child (ftn_init i 0 h) 0 o))).
    apply assign_nact; [lia|]. cbn [ftn_init n_nact n_child]. symmetry. apply cnt_null. intros k _. reflexivity.
Qed.
Lemma root_hold : forall W W' i h a, tree_inv W -> NewRoot W W' i h a -> forall q, hold W' q = hold W q.
Proof.
  intros W W' i h a T [Fr P Hh Ol Nd Ot In Bl] [j k|x s]; cbn [hold].
  - destruct (Z.eq_dec j i) as [->|Nj]; [|rewrite Ot by exact Nj; reflexivity].
    rewrite In. cbn [fi_set_slot fi_ty2 fi_slot]. destruct ((1 <=? k) && (k <=? 19)) eqn:X; [|reflexivity]. rewrite fset_other by lia. reflexivity.
  - rewrite Nd. destruct (x =? a) eqn:X; [|reflexivity]. assert (x = a) by lia. subst x. rewrite Fr.
    change (n_height (root_node i h (old_root (w_ino W i)))) with h.
    destruct ((h =? 2) && (0 <=? s) && (s <? 1024)) eqn:Y; [|reflexivity].
    unfold child_at. destruct (has_child _ s) eqn:C; [|reflexivity]. exfalso. apply has_child_iff in C. rewrite root_child in C.
    destruct (old_cases W i h T ltac:(lia) Ol) as [(E & _ & Eo)|(r & n & E1 & E2 & E3 & E4 & _)]; [|lia].
    rewrite Eo in C. revert C. cbn. unfold OFF_NULL. destruct (s =? 0); lia.
Qed.
Lemma root_bottom_oth : forall W W' i h a j off, tree_inv W -> NewRoot W W' i h a -> j <> i -> bottom W' j off = bottom W j off.
Proof.
  intros W W' i h a j off T N Nj. unfold bottom, root_of. rewrite (nr_oth _ _ _ _ _ N j Nj).
  destruct (fi_slot (w_ino W j) 0) as [[t r]|] eqn:E; [|reflexivity].
  destruct (ti_root W T j t r E) as (_ & n & Hn & _). apply (walk_ext W W' off T) with (n := n); [|exact Hn].
  intros x m Hx. apply (kept_node W W' i h a N x m Hx).
Qed.
Lemma root_bottom : forall W W' i h a off, tree_inv W -> NewRoot W W' i h a -> 0 <= off ->
  bottom W' i off = bottom W i off \/ (bottom W i off = None /\ bottom W' i off = Some a /\ h = 2).
Proof.
  intros W W' i h a off T N H. pose proof (root_tree_inv W W' i h a T N) as T'.
  pose proof (kept_node W W' i h a N) as Kn. pose proof (nr_h _ _ _ _ _ N) as Hh.
  assert (Rt : root_of W' i = Some a).
  { unfold root_of. rewrite (nr_ino _ _ _ _ _ N). cbn [fi_set_slot fi_slot]. rewrite fset_same. reflexivity. }
  assert (Ha : w_node W' a = Some (root_node i h (old_root (w_ino W i)))) by (rewrite (nr_node _ _ _ _ _ N), Z.eqb_refl; reflexivity).
  pose proof (root_shape i h (old_root (w_ino W i)) Hh) as Sh.
  unfold bottom at 1 4. rewrite Rt. rewrite (walk_S 4), Ha.
  change (n_height (root_node i h (old_root (w_ino W i)))) with h.
  destruct (old_cases W i h T ltac:(lia) (nr_old _ _ _ _ _ N)) as [(E & -> & Eo)|(r & n & E1 & E2 & E3 & E4 & E5 & E6 & E7 & E8)].
  - assert (B : bottom W i off = None) by (unfold bottom, root_of; rewrite E; reflexivity). rewrite B.
    destruct (n_inrange _ off); [|left; reflexivity]. right. auto.
  - left. unfold bottom, root_of. rewrite E1. replace (h <=? 2) with false by lia. rewrite E8.
    destruct (ti_shape W T r n E2) as [_ Sn].
    assert (En : n_end n = sub_of h) by (rewrite (sh_end n Sn), span_eq, E3, E6 by apply Sn; rewrite (sub_step h) by lia; lia).
    rewrite E8 in Sh.
    destruct (n_inrange (root_node i h r) off) eqn:R.
    + apply inrange_iff in R. pose proof (slot_bounds _ off Sh R) as Sb.
      change (n_height (root_node i h r)) with h in Sb. change (n_beg (root_node i h r)) with 0 in Sb.
      pose proof (sub_pos h Hh) as Sp. pose proof (slot_range _ off Sh R) as Sr.
      set (s := slot_of (root_node i h r) off) in *. unfold child_at, has_child. rewrite root_child.
      destruct (s =? 0) eqn:S0.
      * unfold off_isnull. replace (r <? 0) with false by lia. replace (r <? 0) with false by lia. cbn [negb].
        rewrite (walk_ext W W' off T) with (n := n); [|intros x m Hx; apply (Kn x m Hx)|exact E2].
        apply (walk_fuel W off T 4 5 r n E2); lia.
      * cbn. rewrite E2. replace (n_inrange n off) with false; [reflexivity|]. symmetry. apply not_true_is_false. intro X.
        apply inrange_iff in X. nia.
    + rewrite (walk_S 4), E2. replace (n_inrange n off) with false; [reflexivity|]. symmetry. apply not_true_is_false. intro X.
      apply inrange_iff in X. assert (Y : n_inrange (root_node i h r) off = true); [|congruence].
      apply inrange_iff. rewrite (sh_end _ Sh). change (n_beg (root_node i h r)) with 0. change (n_height (root_node i h r)) with h.
      rewrite span_eq by exact Hh. pose proof (sub_pos h Hh). lia.
Qed.
Lemma root_eff : forall W W' i h a, Inv W -> NewRoot W W' i h a -> GEff i W W' /\ has_height W' i h.
Proof.
  intros W W' i h a [T K] N. pose proof (root_hold W W' i h a T N) as Hh. pose proof (kept_node W W' i h a N) as Kn.
  pose proof (root_tree_inv W W' i h a T N) as T'.
  assert (Kv : forall q k, kval W' q k = kval W q k).
  { intros q k. unfold kval. rewrite Hh. destruct (hold W q) as [[t x]|]; [|reflexivity]. rewrite (nr_blk _ _ _ _ _ N). reflexivity. }
  assert (Ty : forall j, fi_ty2 (w_ino W' j) = fi_ty2 (w_ino W j)).
  { intro j. destruct (Z.eq_dec j i) as [->|Nj]; [rewrite (nr_ino _ _ _ _ _ N); reflexivity|rewrite (nr_oth _ _ _ _ _ N j Nj); reflexivity]. }
  assert (Pl : forall j off, 0 <= off -> place W' j off = place W j off).
  { intros j off H. unfold place, key_of. rewrite Ty. destruct (kind_of (fi_ty2 (w_ino W j)) off); try apply Hh.
    destruct (Z.eq_dec j i) as [->|Nj].
    - destruct (root_bottom W W' i h a off T N H) as [->|(-> & -> & _)].
      + destruct (bottom W i off); [apply Hh|reflexivity].
      + rewrite Hh. cbn [hold]. rewrite (nr_free _ _ _ _ _ N). reflexivity.
    - rewrite (root_bottom_oth W W' i h a j off T N Nj). destruct (bottom W j off); [apply Hh|reflexivity]. }
  assert (Ct : forall j off, 0 <= off -> content W' j off = content W j off).
  { intros j off H. unfold content, key_of. rewrite Ty. destruct (kind_of (fi_ty2 (w_ino W j)) off); try apply Kv.
    destruct (Z.eq_dec j i) as [->|Nj].
    - destruct (root_bottom W W' i h a off T N H) as [->|(-> & -> & _)].
      + destruct (bottom W i off); [apply Kv|reflexivity].
      + rewrite Kv. unfold kval. cbn [hold]. rewrite (nr_free _ _ _ _ _ N). reflexivity.
    - rewrite (root_bottom_oth W W' i h a j off T N Nj). destruct (bottom W j off); [apply Kv|reflexivity]. }
  split.
  - constructor; [|apply N|exact Pl]. constructor; auto; try (rewrite (nr_ino _ _ _ _ _ N); reflexivity); try apply N.
    + split; [exact T'|]. apply (keys_inv_ext W W' K Hh).
      * intros [j k|x s] Hq; [reflexivity|]. cbn [owner hold] in *. destruct (w_node W x) as [n|] eqn:X; [|congruence]. destruct (Kn x n X) as [-> _]. reflexivity.
      * apply N.
      * intro j. destruct (Z.eq_dec j i) as [->|Nj]; [rewrite (nr_ino _ _ _ _ _ N); reflexivity|rewrite (nr_oth _ _ _ _ _ N j Nj); reflexivity].
    + intros R x n Hx. rewrite (nr_node _ _ _ _ _ N) in Hx. destruct (x =? a); [|apply (R x n Hx)].
      assert (n = root_node i h (old_root (w_ino W i))) by congruence. subst n. reflexivity.
  - unfold has_height. rewrite (nr_ino _ _ _ _ _ N). cbn [fi_set_slot fi_slot]. rewrite fset_same.
    exists (root_node i h (old_root (w_ino W i))). rewrite (nr_node _ _ _ _ _ N), Z.eqb_refl. split; reflexivity.
Qed.
Lemma sp_spawn_root : forall W i h, Inv W -> 2 <= h <= 5 -> has_height W i (h - 1) ->
  spec W (spawn_root i h) (fun _ W' => GEff i W W' /\ has_height W' i h) (EW (GEff i W)).
Proof.
  intros W i h I Hh Ho. unfold spawn_root. sp_ino. eapply sp_bind.
  { eapply sp_conseq; [apply sp_spawn_ftnode|intros a W' X; exact X|]. intros e W' [Ne ->]. split; [exact Ne|apply ge_refl, I]. }
  cbv beta. intros a W1 (Fr & P & ->). set (W1 := set_node _ a _).
  assert (H1 : w_node W1 a = Some (ftn_init i 0 h)) by (unfold W1; cbn [set_node w_node]; apply fset_same).
  sp_node H1. eapply sp_bind; [apply sp_put_node|]. cbv beta. intros [] W2 ->. set (W2 := set_node W1 a _).
  eapply sp_bind; [apply sp_put_ino|]. cbv beta. intros [] W3 ->. set (W3 := set_ino W2 i _).
  assert (H3 : w_node W3 a = Some (assign_child (ftn_init i 0 h) 0 (old_root (w_ino W i)))).
  { unfold W3, W2. cbn [set_node set_ino w_node]. apply fset_same. }
  sp_node H3. eapply sp_conseq; [apply sp_put_node| |intros e W' X; exact X].
  intros [] W4 ->. apply (root_eff W _ i h a I). constructor; try assumption.
  - intro x. unfold W3, W2, W1. cbn [set_node set_ino w_node]. unfold fset. destruct (x =? a); reflexivity.
  - intros j Nj. unfold W3, W2, W1. cbn [set_node set_ino w_ino]. apply fset_other, Nj.
  - unfold W3, W2, W1. cbn [set_node set_ino w_ino]. apply fset_same.
  - reflexivity.
Qed.
Lemma sp_grow_spine : forall i want, want <= 5 -> forall f W h, Inv W -> 1 <= h -> has_height W i h -> 1 <= Z.of_nat f -> want - h < Z.of_nat f ->
  spec W (grow_spine f i h want) (fun _ W' => GEff i W W' /\ has_height W' i (Z.max h want)) (EW (GEff i W)).
Proof.
  intros i want Hw. induction f as [|f IH]; intros W h I Hh Ho H1 Hf; [lia|].
  cbn [grow_spine]. destruct (h <? want) eqn:L.
  - eapply sp_bind; [apply (sp_spawn_root W i (h + 1) I); [lia|replace (h + 1 - 1) with h by lia; exact Ho]|].
    cbv beta. intros [] W1 (E1 & H2). eapply sp_conseq; [apply (IH W1 (h + 1)); try lia; [apply E1|exact H2]| |].
    + intros [] W2 (E2 & H3). split; [apply (ge_trans _ _ _ _ E1 E2)|]. replace (Z.max h want) with (Z.max (h + 1) want) by lia. exact H3.
    + intros e W2 [Ne E2]. split; [exact Ne|apply (ge_trans _ _ _ _ E1 E2)].
  - apply sp_ret. split; [apply ge_refl, I|]. replace (Z.max h want) with h by lia. exact Ho.
Qed.
Lemma sp_stage_root : forall W i t r n, tree_inv W -> fi_slot (w_ino W i) 0 = Some (t, r) -> w_node W r = Some n ->
  spec W (stage_root i) (fun v W' => W' = W /\ v = r) (here W).
Proof.
  intros W i t r n T E Hn. unfold stage_root. sp_ino. rewrite E. destruct (ti_root W T i t r E) as (_ & n' & Hn' & In & _).
  destruct (ti_shape W T r n' Hn') as [_ Sh]. apply (sp_stage_node W i t r n' Hn' In). apply Sh.
Qed.
Lemma here_eff : forall W i, Inv W -> forall e W', here W e W' -> EW (GEff i W) e W'.
Proof. intros W i I e W' [N ->]. split; [exact N|apply ge_refl, I]. Qed.
Lemma sp_create_spine : forall W i off, Inv W -> 0 <= off < 2 ^ 56 ->
  spec W (create_spine i off)
    (fun _ W' => GEff i W W' /\ exists t r n, fi_slot (w_ino W' i) 0 = Some (t, r) /\ w_node W' r = Some n /\ n_beg n <= off < n_end n)
    (EW (GEff i W)).
Proof.
  intros W i off I H. destruct (tree_height_spec off H) as [Th Ts]. unfold create_spine. sp_ino.
  eapply sp_bind with (Q := fun h W' => W' = W /\ 1 <= h /\ has_height W i h).
  { unfold has_root, has_height. destruct (fi_slot (w_ino W i) 0) as [[t r]|] eqn:E.
    - destruct (ti_root W (proj1 I) i t r E) as (-> & n & Hn & In & _). rewrite Z.eqb_refl.
      eapply sp_bind; [eapply sp_conseq; [apply (sp_stage_root W i LT_FTNODE r n (proj1 I) E Hn)|intros x W' X; exact X|apply here_eff, I]|].
      cbv beta. intros x W' [-> ->]. sp_node Hn. destruct (ti_shape W (proj1 I) r n Hn) as [_ Sh]. pose proof (sh_h n Sh).
      apply sp_ret. split; [reflexivity|]. split; [lia|]. exists n. auto.
    - apply sp_ret. split; [reflexivity|]. split; [lia|reflexivity]. }
  cbv beta. intros h W' (-> & H1 & Hh).
  eapply sp_conseq; [apply (sp_grow_spine i (tree_height off) ltac:(lia) 10 W h I H1 Hh); lia| |intros e W' X; exact X].
  intros [] W' (E & H2). split; [exact E|]. unfold has_height in H2. destruct (fi_slot (w_ino W' i) 0) as [[t r]|] eqn:Er; [|lia].
  destruct H2 as (n & Hn & Hm). exists t, r, n. split; [reflexivity|]. split; [exact Hn|].
  pose proof (e_inv _ _ _ _ _ E) as [T' _]. destruct (ti_root W' T' i t r Er) as (_ & n' & Hn' & _ & Hb). assert (n' = n) by congruence. subst n'.
  destruct (ti_shape W' T' r n Hn) as [_ Sh]. rewrite (sh_end n Sh), Hb. pose proof (sh_h n Sh) as H5. split; [lia|].
  assert (Mono : span_by_height (tree_height off) <= span_by_height (n_height n)); [|lia].
  assert (L : tree_height off <= n_height n) by lia. clear -Th H5 L.
  assert (tree_height off = 2 \/ tree_height off = 3 \/ tree_height off = 4 \/ tree_height off = 5) as X by lia.
  assert (n_height n = 2 \/ n_height n = 3 \/ n_height n = 4 \/ n_height n = 5) as Y by lia.
  destruct X as [X|[X|[X|X]]]; destruct Y as [Y|[Y|[Y|Y]]]; rewrite X, Y in *; try lia; vm_compute; discriminate.
Qed.

(* ---- a new node below a node ---- *)

Record NewNode (W W' : world) (i off h a p : Z) (n : ftn) : Prop := mkNN {
  nn_free : w_node W a = None;
  nn_pos : 0 <= a;
  nn_par : w_node W p = Some n;
  nn_ino : n_ino n = i;
  nn_h : n_height n = h + 1;
  nn_h3 : 2 <= h;
  nn_rng : n_beg n <= off < n_end n;
  nn_null : has_child n (slot_of n off) = false;
  nn_node : forall x, w_node W' x = if x =? a then Some (set_nref (ftn_init i off h) 1)
                                   else if x =? p then Some (assign_child n (slot_of n off) a) else w_node W x;
  nn_oth : forall j, w_ino W' j = w_ino W j;
  nn_blk : forall t x, w_blk W' t x = w_blk W t x }.
Lemma new_shape : forall i off h, 2 <= h <= 5 -> 0 <= off -> shape (set_nref (ftn_init i off h) 1).
Proof.
  intros i off h H Ho.
  assert (E : calc_beg off h = off / span_by_height h * span_by_height h).
  { unfold calc_beg, off_align. rewrite span_eq by exact H. pose proof (sub_pos h H). rewrite Z.quot_div_nonneg by lia. lia. }
  assert (Sp : 0 < span_by_height h) by (rewrite span_eq by exact H; pose proof (sub_pos h H); lia).
  constructor; cbn [set_nref ftn_init n_height n_beg n_end n_ctype]; try reflexivity; try exact H.
  - rewrite E. apply Z.mul_nonneg_nonneg; [apply Z.div_pos; lia|lia].
  - rewrite E. apply Z.mod_mul. lia.
Qed.
Lemma new_beg : forall n i off h, shape n -> n_height n = h + 1 -> 2 <= h -> n_beg n <= off < n_end n ->
  n_beg (set_nref (ftn_init i off h) 1) = n_beg n + slot_of n off * sub_of (n_height n).
Proof.
  intros n i off h Sh Hh H2 R. cbn [set_nref ftn_init n_beg]. unfold calc_beg, off_align. rewrite slot_spec by assumption.
  destruct Sh as [H5 Hb Ha He Hc]. assert (S : span_by_height h = sub_of (n_height n)).
  { rewrite span_eq by lia. rewrite Hh, (sub_step (h + 1)) by lia. replace (h + 1 - 1) with h by lia. reflexivity. }
  rewrite S. rewrite span_eq in Ha by exact H5. pose proof (sub_pos _ H5) as Sp. rewrite Z.quot_div_nonneg by lia.
  destruct (sub_cases _ H5) as [E|[E|[E|E]]]; rewrite E in *; clear -Ha R Hb; lia.
Qed.
Record nn_facts (W W' : world) (i off h a p : Z) (n : ftn) : Prop := mkNF {
  nf_tree : tree_inv W';
  nf_hold : forall q, hold W' q = hold W q;
  nf_child : exists t m, child_at (assign_child n (slot_of n off) a) (slot_of n off) = Some (t, a) /\
                         w_node W' a = Some m /\ n_height m = h /\ n_beg m <= off < n_end m /\ n_ino m = i;
  nf_walk : forall d c m o, w_node W c = Some m ->
            walk d W' c o = walk d W c o \/ (walk d W c o = None /\ walk d W' c o = Some a) }.
Lemma new_facts : forall W W' i off h a p n, tree_inv W -> NewNode W W' i off h a p n -> nn_facts W W' i off h a p n.
Proof.
  intros W W' i off h a p n T [Fr P Pa In Hh H3 R Nu Nd Ot Bl].
  destruct (ti_shape W T p n Pa) as [_ Sh]. pose proof (sh_h n Sh) as H5. pose proof (slot_range n off Sh R) as Sr.
  set (s0 := slot_of n off) in *. set (m0 := set_nref (ftn_init i off h) 1) in *. set (n' := assign_child n s0 a) in *.
  assert (Sm : shape m0) by (apply new_shape; [lia|pose proof (sh_beg n Sh); lia]).
  assert (Bm : n_beg m0 = n_beg n + s0 * sub_of (n_height n)) by (apply new_beg; assumption).
  assert (Npa : p <> a) by congruence.
  assert (Np : w_node W' p = Some n') by (rewrite Nd; replace (p =? a) with false by lia; rewrite Z.eqb_refl; reflexivity).
  assert (Na : w_node W' a = Some m0) by (rewrite Nd, Z.eqb_refl; reflexivity).
  assert (Kn : forall x m, w_node W x = Some m -> x <> p -> w_node W' x = Some m).
  { intros x m Hx Nx. rewrite Nd. replace (x =? a) with false by (assert (x <> a) by congruence; lia). replace (x =? p) with false by lia. exact Hx. }
  assert (Ch : forall s, n_child n' s = if s =? s0 then a else n_child n s).
  { intro s. unfold n'. rewrite assign_child_at. unfold off_isnull. replace (a <? 0) with false by lia. reflexivity. }
  assert (Cm : forall s, has_child m0 s = false) by reflexivity.
  assert (Ex : forall x m, w_node W' x = Some m -> (x = a /\ m = m0) \/ (x = p /\ m = n') \/ (x <> a /\ x <> p /\ w_node W x = Some m)).
  { intros x m Hx. rewrite Nd in Hx. destruct (x =? a) eqn:X; [left; split; [lia|congruence]|]. destruct (x =? p) eqn:Y; [right; left; split; [lia|congruence]|].
    right; right. repeat split; [lia|lia|exact Hx]. }
  assert (Nc : forall x m s, inner W x m -> 0 <= s < 1024 -> n_child m s <> a).
  { intros x m s Ix Hs E. destruct (has_child m s) eqn:C.
    - destruct (ti_child W T x m s Ix Hs C) as (k & Hk & _). rewrite E in Hk. congruence.
    - assert (X : 0 <= n_child m s) by lia. apply has_child_iff in X. congruence. }
  assert (Ip : inner W p n) by (split; [exact Pa|lia]).
  (* a child in W' is a child in W, or the new one *)
  assert (Cc : forall x m s, inner W' x m -> 0 <= s < 1024 -> has_child m s = true ->
            (x = p /\ m = n' /\ s = s0 /\ n_child m s = a) \/
            (exists m1, inner W x m1 /\ has_child m1 s = true /\ n_child m s = n_child m1 s /\ n_ino m1 = n_ino m /\ n_height m1 = n_height m /\ n_beg m1 = n_beg m)).
  { intros x m s [Hx Hi] Hs C. destruct (Ex x m Hx) as [(-> & ->)|[(-> & ->)|(_ & _ & Hx')]].
    - rewrite Cm in C. discriminate.
    - pose proof (Ch s) as E. destruct (s =? s0) eqn:S0; [left; repeat split; [lia|exact E]|]. right. exists n. split; [exact Ip|].
      apply has_child_iff in C. rewrite E in C. split; [apply has_child_iff, C|]. split; [exact E|]. repeat split.
    - right. exists m. split; [split; assumption|]. auto. }
  assert (T' : tree_inv W').
  { constructor.
    - intros x m Hx. destruct (Ex x m Hx) as [(-> & ->)|[(-> & ->)|(_ & _ & Hx')]]; [split; assumption| |apply (ti_shape W T x m Hx')].
      destruct (ti_shape W T p n Pa) as [Pp _]. split; [exact Pp|]. destruct Sh. constructor; assumption.
    - intros x m s Ix Hs C. destruct (Cc x m s Ix Hs C) as [(-> & -> & -> & Ec)|(m1 & I1 & C1 & Ec & E1 & E2 & E3)].
      + exists m0. rewrite Ec. split; [exact Na|]. split; [exact (eq_sym In)|]. split; [|exact Bm].
        change (h = n_height n - 1). lia.
      + destruct (ti_child W T x m1 s I1 Hs C1) as (k & Hk & Ik & Hk1 & Hk2). rewrite Ec.
        destruct (Z.eq_dec (n_child m1 s) p) as [Ep|Ep].
        * rewrite Ep in *. assert (k = n) by congruence. subst k. exists n'. split; [exact Np|].
          change (n_ino n = n_ino m /\ n_height n = n_height m - 1 /\ n_beg n = n_beg m + s * sub_of (n_height m)). rewrite <- E1, <- E2, <- E3. auto.
        * exists k. split; [apply (Kn _ k Hk Ep)|]. rewrite <- E1, <- E2, <- E3. auto.
    - intros x m s x' m' s' Ix Ix' Hs Hs' C E.
      assert (C' : has_child m' s' = true) by (apply has_child_iff; apply has_child_iff in C; lia).
      destruct (Cc x m s Ix Hs C) as [(-> & -> & -> & Ec)|(m1 & I1 & C1 & Ec & _)];
      destruct (Cc x' m' s' Ix' Hs' C') as [(-> & -> & -> & Ec')|(m1' & I1' & C1' & Ec' & _)].
      + auto.
      + exfalso. apply (Nc x' m1' s' I1' Hs'). congruence.
      + exfalso. apply (Nc x m1 s I1 Hs). congruence.
      + apply (ti_inj W T x m1 s x' m1' s'); try assumption. congruence.
    - intros j t r E. rewrite Ot in E. destruct (ti_root W T j t r E) as (-> & k & Hk & Ik & Bk). split; [reflexivity|].
      destruct (Z.eq_dec r p) as [->|Nr]; [|exists k; split; [apply (Kn r k Hk Nr)|auto]].
      assert (k = n) by congruence. subst k. exists n'. split; [exact Np|]. split; [exact Ik|exact Bk].
    - intros j t r x m s E Ix Hs Ec. rewrite Ot in E. destruct (ti_root W T j t r E) as (_ & k & Hk & _ & _).
      destruct (ti_shape W T r k Hk) as [Pr _].
      assert (C : has_child m s = true) by (apply has_child_iff; lia).
      destruct (Cc x m s Ix Hs C) as [(-> & -> & -> & Ec')|(m1 & I1 & C1 & Ec' & _)]; [congruence|].
      apply (ti_free W T j t r x m1 s E I1 Hs). congruence.
    - intros x m Hx. destruct (Ex x m Hx) as [(-> & ->)|[(-> & ->)|(_ & _ & Hx')]]; [| |apply (ti_nact W T x m Hx')].
      + symmetry. apply cnt_null. intros k _. reflexivity.
      + apply assign_nact; [exact Sr|apply (ti_nact W T p n Pa)]. }
  constructor.
  - exact T'.
  - intros [j k|x s]; cbn [hold]; [rewrite Ot; reflexivity|]. rewrite Nd. destruct (x =? a) eqn:X.
    + assert (x = a) by lia. subst x. rewrite Fr. destruct (_ && _); reflexivity.
    + destruct (x =? p) eqn:Y; [|reflexivity]. assert (x = p) by lia. subst x. rewrite Pa.
      change (n_height n') with (n_height n). replace (n_height n =? 2) with false by lia. reflexivity.
  - exists (n_ctype n'), m0. split.
    { unfold child_at, has_child. rewrite Ch, Z.eqb_refl. unfold off_isnull. replace (a <? 0) with false by lia. reflexivity. }
    split; [exact Na|]. split; [reflexivity|]. split; [|reflexivity].
    rewrite (sh_end m0 Sm), span_eq by apply Sm. change (n_height m0) with h. rewrite Bm.
    pose proof (slot_bounds n off Sh R) as Sb. fold s0 in Sb. rewrite Hh in *. rewrite (sub_step (h + 1)) in * by lia.
    replace (h + 1 - 1) with h in * by lia. lia.
  - induction d as [|d IH]; intros c m o Hc; [left; reflexivity|]. rewrite !walk_S, Hc.
    destruct (ti_shape W T c m Hc) as [_ Sc]. pose proof (sh_h m Sc) as Hc5.
    destruct (Z.eq_dec c p) as [->|Ncp].
    + assert (m = n) by congruence. subst m. rewrite Np. change (n_inrange n' o) with (n_inrange n o). destruct (n_inrange n o) eqn:Ro; [|left; reflexivity].
      apply inrange_iff in Ro.
      change (n_height n') with (n_height n). replace (n_height n <=? 2) with false by lia. change (slot_of n' o) with (slot_of n o).
      unfold child_at, has_child. rewrite Ch. change (n_ctype n') with (n_ctype n). destruct (slot_of n o =? s0) eqn:S0.
      * assert (So : slot_of n o = s0) by lia. rewrite So. unfold has_child in Nu. rewrite Nu. unfold off_isnull. replace (a <? 0) with false by lia. cbn [negb].
        destruct d as [|d]; [left; reflexivity|]. rewrite walk_S, Na. destruct (n_inrange m0 o); [|left; reflexivity].
        destruct (n_height m0 <=? 2); [right; split; reflexivity|]. left. reflexivity.
      * destruct (negb (off_isnull (n_child n (slot_of n o)))) eqn:C; [|left; reflexivity].
        destruct (child_range W p n o T Pa ltac:(lia) Ro C) as (k & Hk & _). apply (IH _ k o Hk).
    + rewrite (Kn c m Hc Ncp). destruct (n_inrange m o) eqn:Ro; [|left; reflexivity]. apply inrange_iff in Ro.
      destruct (n_height m <=? 2) eqn:B; [left; reflexivity|].
      destruct (child_at m (slot_of m o)) as [[t x]|] eqn:C; [|left; reflexivity]. apply child_at_some in C. destruct C as (C & _ & ->).
      destruct (child_range W c m o T Hc ltac:(lia) Ro C) as (k & Hk & _). apply (IH _ k o Hk).
Qed.

(* growing below the root: nodes and links stay *)
Record Grow (i : Z) (W W' : world) : Prop := mkGrow {
  g_eff : GEff i W W';
  g_root : forall j, fi_slot (w_ino W' j) 0 = fi_slot (w_ino W j) 0;
  g_node : forall a n, w_node W a = Some n -> exists n', w_node W' a = Some n' /\ n_ino n' = n_ino n /\ n_beg n' = n_beg n /\
           n_end n' = n_end n /\ n_height n' = n_height n /\ n_ctype n' = n_ctype n /\
           (forall s, 0 <= s < 1024 -> has_child n s = true -> n_child n' s = n_child n s) }.
Lemma grow_refl : forall i W, Inv W -> Grow i W W.
Proof. intros i W I. constructor; [apply ge_refl, I|reflexivity|]. intros a n H. exists n. repeat split; auto. Qed.
Lemma grow_trans : forall i W W1 W2, Grow i W W1 -> Grow i W1 W2 -> Grow i W W2.
Proof.
  intros i W W1 W2 [A B C] [A' B' C']. constructor; [apply (ge_trans _ _ _ _ A A')|intro j; rewrite B', B; reflexivity|].
  intros a n H. destruct (C a n H) as (n1 & H1 & E1 & E2 & E3 & E4 & E5 & E6). destruct (C' a n1 H1) as (n2 & H2 & F1 & F2 & F3 & F4 & F5 & F6).
  exists n2. split; [exact H2|]. repeat split; try congruence. intros s Hs Hc. rewrite F6; [apply E6; assumption|exact Hs|].
  apply has_child_iff. rewrite E6 by assumption. apply has_child_iff, Hc.
Qed.
Lemma new_grow : forall W W' i off h a p n, Inv W -> NewNode W W' i off h a p n -> Grow i W W'.
Proof.
  intros W W' i off h a p n [T K] N. destruct (new_facts W W' i off h a p n T N) as [T' Hh _ Wk].
  assert (Kv : forall q k, kval W' q k = kval W q k).
  { intros q k. unfold kval. rewrite Hh. destruct (hold W q) as [[t x]|]; [|reflexivity]. rewrite (nn_blk _ _ _ _ _ _ _ _ N). reflexivity. }
  pose proof (nn_oth _ _ _ _ _ _ _ _ N) as Ot.
  assert (Pl : forall j o, place W' j o = place W j o).
  { intros j o. unfold place, key_of. rewrite Ot. destruct (kind_of (fi_ty2 (w_ino W j)) o); try apply Hh.
    unfold bottom, root_of. rewrite Ot. destruct (fi_slot (w_ino W j) 0) as [[t r]|] eqn:E; [|reflexivity].
    destruct (ti_root W T j t r E) as (_ & m & Hm & _). destruct (Wk 5%nat r m o Hm) as [->|(-> & ->)].
    - destruct (walk 5 W r o); [apply Hh|reflexivity].
    - rewrite Hh. cbn [hold]. rewrite (nn_free _ _ _ _ _ _ _ _ N). reflexivity. }
  assert (Ct : forall j o, content W' j o = content W j o).
  { intros j o. unfold content, key_of. rewrite Ot. destruct (kind_of (fi_ty2 (w_ino W j)) o); try apply Kv.
    unfold bottom, root_of. rewrite Ot. destruct (fi_slot (w_ino W j) 0) as [[t r]|] eqn:E; [|reflexivity].
    destruct (ti_root W T j t r E) as (_ & m & Hm & _). destruct (Wk 5%nat r m o Hm) as [->|(-> & ->)].
    - destruct (walk 5 W r o); [apply Kv|reflexivity].
    - rewrite Kv. unfold kval. cbn [hold]. rewrite (nn_free _ _ _ _ _ _ _ _ N). reflexivity. }
  assert (Kp : forall x m, w_node W x = Some m -> exists n', w_node W' x = Some n' /\ n_ino n' = n_ino m /\ n_beg n' = n_beg m /\
           n_end n' = n_end m /\ n_height n' = n_height m /\ n_ctype n' = n_ctype m /\ n_ref n' = n_ref m /\
           (forall s, 0 <= s < 1024 -> has_child m s = true -> n_child n' s = n_child m s)).
  { intros x m Hx. rewrite (nn_node _ _ _ _ _ _ _ _ N). destruct (x =? a) eqn:X.
    - assert (x = a) by lia. subst x. rewrite (nn_free _ _ _ _ _ _ _ _ N) in Hx. discriminate.
    - destruct (x =? p) eqn:Y; [|exists m; split; [exact Hx|repeat split; auto]].
      assert (x = p) by lia. subst x. rewrite (nn_par _ _ _ _ _ _ _ _ N) in Hx. assert (m = n) by congruence. subst m.
      eexists. split; [reflexivity|]. repeat split. intros s Hs Hc. rewrite assign_child_at. destruct (s =? slot_of n off) eqn:S0; [|reflexivity].
      assert (s = slot_of n off) by lia. subst s. rewrite (nn_null _ _ _ _ _ _ _ _ N) in Hc. discriminate. }
  constructor.
  - constructor; [|apply N|intros; apply Pl]. constructor; auto; try (rewrite Ot; reflexivity).
    + split; [exact T'|]. apply (keys_inv_ext W W' K Hh).
      * intros [j k|x s] Hq; [reflexivity|]. cbn [owner hold] in *. destruct (w_node W x) as [m|] eqn:X; [|congruence].
        destruct (Kp x m X) as (m' & -> & -> & _). reflexivity.
      * apply N.
      * intro j. rewrite Ot. reflexivity.
    + intros R x m Hx. rewrite (nn_node _ _ _ _ _ _ _ _ N) in Hx. destruct (x =? a); [assert (m = set_nref (ftn_init i off h) 1) by congruence; subst m; reflexivity|].
      destruct (x =? p); [|apply (R x m Hx)]. assert (m = assign_child n (slot_of n off) a) by congruence. subst m.
      apply (R p n (nn_par _ _ _ _ _ _ _ _ N)).
  - intro j. rewrite Ot. reflexivity.
  - intros x m Hx. destruct (Kp x m Hx) as (n' & A & B & C & D & E & F & _ & G). exists n'. repeat split; auto.
Qed.
Lemma sp_require_node : forall W i off p n, Inv W -> w_node W p = Some n -> n_ino n = i -> 3 <= n_height n -> n_beg n <= off < n_end n ->
  spec W (require_node i off p)
    (fun c W' => Grow i W W' /\ exists n' t m, w_node W' p = Some n' /\ n_inrange n' off = true /\ n_height n' = n_height n /\ child_at n' (slot_of n' off) = Some (t, c) /\
                 w_node W' c = Some m /\ n_ino m = i /\ n_height m = n_height n - 1 /\ n_beg m <= off < n_end m) (EW (GEff i W)).
Proof.
  intros W i off p n I Hp In H3 R. unfold require_node. sp_node Hp.
  destruct (ti_shape W (proj1 I) p n Hp) as [_ Sh].
  destruct (child_at n (slot_of n off)) as [[t c]|] eqn:C.
  - pose proof C as C0. apply child_at_some in C. destruct C as (Hc & _ & ->).
    destruct (child_range W p n off (proj1 I) Hp H3 R Hc) as (m & Hm & Im & Hh & Rm).
    eapply sp_conseq; [apply (sp_stage_node W i t _ m Hm)| |apply here_eff, I].
    + congruence.
    + pose proof (sh_h n Sh). lia.
    + intros x W' [-> ->]. split; [apply grow_refl, I|]. exists n, t, m. repeat split; try assumption; try congruence; try lia. apply inrange_iff, R.
  - apply child_at_none in C. eapply sp_bind.
    { eapply sp_conseq; [apply sp_spawn_ftnode|intros a W' X; exact X|]. intros e W' [Ne ->]. split; [exact Ne|apply ge_refl, I]. }
    cbv beta. intros a W1 (Fr & P & ->). set (W1 := set_node _ a _).
    assert (Npa : p <> a) by congruence.
    assert (H1 : w_node W1 p = Some n) by (unfold W1; cbn [set_node w_node]; rewrite fset_other by exact Npa; exact Hp).
    eapply sp_bind; [unfold bind_child; sp_node H1; apply sp_put_node|]. cbv beta. intros [] W2 ->. set (W2 := set_node W1 p _).
    assert (H2 : w_node W2 a = Some (ftn_init i off (n_height n - 1))).
    { unfold W2, W1. cbn [set_node w_node]. rewrite fset_other by congruence. apply fset_same. }
    sp_node H2. eapply sp_bind; [apply sp_put_node|]. cbv beta. intros [] W3 ->. apply sp_ret. set (W3 := set_node W2 a _).
    assert (N : NewNode W W3 i off (n_height n - 1) a p n).
    { constructor; try assumption; try lia.
      - intro x. unfold W3, W2, W1. cbn [set_node w_node]. unfold fset. destruct (x =? a); reflexivity.
      - reflexivity.
      - reflexivity. }
    split; [apply (new_grow W W3 i off (n_height n - 1) a p n I N)|].
    destruct (new_facts W W3 i off _ a p n (proj1 I) N) as [T' Hh (t & m & E1 & E2 & E3 & E4 & E5) _].
    exists (assign_child n (slot_of n off) a), t, m. repeat split; try assumption; try lia.
    + rewrite (nn_node _ _ _ _ _ _ _ _ N). replace (p =? a) with false by lia. rewrite Z.eqb_refl. reflexivity.
    + apply inrange_iff, R.
Qed.
Lemma sp_require_from : forall i off h d W a n, Inv W -> w_node W a = Some n -> n_ino n = i -> n_beg n <= off < n_end n ->
  n_height n <= Z.of_nat h + 1 -> n_height n <= Z.of_nat d + 1 ->
  spec W (require_from h i off a) (fun p W' => Grow i W W' /\ walk d W' a off = Some p) (EW (GEff i W)).
Proof.
  intros i off. induction h as [|h IH]; intros d W a n I Ha In R Hh Hd.
  - destruct (ti_shape W (proj1 I) a n Ha) as [_ Sn]. pose proof (sh_h n Sn). lia.
  - destruct (ti_shape W (proj1 I) a n Ha) as [_ Sn]. pose proof (sh_h n Sn) as H5. destruct d as [|d]; [lia|].
    cbn [require_from]. sp_node Ha. eapply sp_bind; [apply (sp_isbottom W n _ H5)|]. cbv beta. intros v W' [-> ->].
    destruct (n_height n <=? 2) eqn:B.
    + apply sp_ret. split; [apply grow_refl, I|]. rewrite walk_S, Ha, B. replace (n_inrange n off) with true by (symmetry; apply inrange_iff, R). reflexivity.
    + eapply sp_bind; [apply (sp_require_node W i off a n I Ha In ltac:(lia) R)|].
      cbv beta. intros c W1 (G & n' & t & m & H1 & R1 & Hh1 & C1 & Hm & Im & Hhm & Rm).
      eapply sp_conseq; [apply (IH d W1 c m); try assumption; try lia; apply G| |].
      * intros p W2 (G2 & Wk). split; [apply (grow_trans i W W1 W2 G G2)|].
        destruct (g_node _ _ _ G2 a n' H1) as (n2 & H2 & E1 & E2 & E3 & E4 & E5 & E6). rewrite walk_S, H2.
        assert (Ri : n_inrange n2 off = n_inrange n' off) by (unfold n_inrange; rewrite E2, E3; reflexivity).
        assert (Si : slot_of n2 off = slot_of n' off) by (unfold slot_of, n_span; rewrite E2, E3; reflexivity).
        rewrite Ri, R1, E4, Hh1, B, Si. apply child_at_some in C1. destruct C1 as (C1 & _ & ->).
        destruct (ti_shape W1 (proj1 (e_inv _ _ _ _ _ (g_eff _ _ _ G))) a n' H1) as [_ Sh1].
        pose proof (slot_range n' off Sh1 (proj1 (inrange_iff _ _) R1)) as Sr.
        unfold child_at. unfold has_child. rewrite (E6 _ Sr C1). unfold has_child in C1. rewrite C1. exact Wk.
      * intros e W2 [Ne E2]. split; [exact Ne|]. apply (ge_trans _ _ _ _ (g_eff _ _ _ G) E2).
Qed.
Lemma sp_require_tree_ge : forall W i off, Inv W -> 0 <= off < 2 ^ 56 ->
  spec W (require_tree i off) (fun p W' => GEff i W W' /\ bottom W' i off = Some p) (EW (GEff i W)).
Proof.
  intros W i off I H. unfold require_tree. eapply sp_bind; [apply (sp_create_spine W i off I H)|].
  cbv beta. intros [] W1 (E1 & t & r & n & Er & Hn & R). pose proof (e_inv _ _ _ _ _ E1) as I1.
  assert (Er0 : forall e W', EW (GEff i W1) e W' -> EW (GEff i W) e W').
  { intros e W' [Ne E2]. split; [exact Ne|apply (ge_trans _ _ _ _ E1 E2)]. }
  unfold require_path. eapply sp_bind.
  { eapply sp_conseq; [apply (sp_stage_root W1 i t r n (proj1 I1) Er Hn)|intros x W' X; exact X|]. intros e W' X. apply Er0. apply (here_eff W1 i I1 e W' X). }
  cbv beta. intros x W' [-> ->]. sp_node Hn. destruct (ti_root W1 (proj1 I1) i t r Er) as (_ & n' & Hn' & In & _). assert (n' = n) by congruence. subst n'.
  destruct (ti_shape W1 (proj1 I1) r n Hn) as [_ Sh]. pose proof (sh_h n Sh).
  eapply sp_conseq; [apply (sp_require_from i off _ 5 W1 r n I1 Hn In R); lia| |exact Er0].
  intros p W2 (G & Wk). split; [apply (ge_trans _ _ _ _ E1 (g_eff _ _ _ G))|].
  unfold bottom, root_of. rewrite (g_root _ _ _ G), Er. exact Wk.
Qed.
Lemma sp_require_tree : forall W i off, Inv W -> 0 <= off < 2 ^ 56 ->
  spec W (require_tree i off) (fun p W' => Eff i 0 0 W W' /\ bottom W' i off = Some p) (EW (Eff i 0 0 W)).
Proof.
  intros W i off I H. eapply sp_conseq; [apply (sp_require_tree_ge W i off I H)| |].
  - intros p W' [A B]. split; [apply A|exact B].
  - intros e W' [A B]. split; [exact A|apply B].
Qed.
