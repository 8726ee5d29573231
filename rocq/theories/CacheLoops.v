(* Proofs about the object cache of CacheModel.v: eviction of many objects, creation. *)
From Coq Require Import ZArith List Lia Bool Permutation.
From Verif Require Import Base AddrModel CacheModel CacheProofs CacheOps.
Import ListNotations.
Open Scope Z_scope.

Section Loops.
Variable H64 : lsid -> Z.
Notation Inv := (Inv H64).

(* objects disappear, all of which were quiet; nothing else changes but the order of use *)
Record Evicts (s s' : lcache) : Prop := mkEvicts {
  E_node : forall j, match lc_node s' j with
                     | Some n' => exists n, lc_node s j = Some n /\ still n' = still n
                     | None => forall n, lc_node s j = Some n -> quiet s j n = true end;
  E_q : forall q, dq_l (lc_q s' q) = dq_l (lc_q s q);
  E_frame : frame s s' }.
Lemma Evicts_refl s : Evicts s s.
Proof. constructor; auto; [|apply frame_refl]. intros j. destruct (lc_node s j); eauto. discriminate. Qed.
Lemma quiet_same s s' j n n' : still n' = still n -> (forall q, dq_l (lc_q s' q) = dq_l (lc_q s q)) ->
  quiet s' j n' = quiet s j n.
Proof.
  intros St Q. apply still_fields in St as (a & b & c & d & e & f & g & h & k & l & m & o).
  unfold quiet. now rewrite k, h, e, o, l, Q.
Qed.
Lemma Evicts_trans a b c : Evicts a b -> Evicts b c -> Evicts a c.
Proof.
  intros [A1 A2 A3] [B1 B2 B3]. constructor; [|intros; now rewrite B2|eapply frame_trans; eauto].
  intros j. specialize (B1 j). specialize (A1 j). destruct (lc_node c j) as [nc|].
  - destruct B1 as (nb & Eb & Sb). rewrite Eb in A1. destruct A1 as (na & Ea & Sa). exists na. split; [easy|congruence].
  - intros n En. destruct (lc_node b j) as [nb|]; [|now apply A1]. destruct A1 as (na & Ea & Sa).
    assert (na = n) by congruence. subst na. rewrite <- (quiet_same a b j n nb); auto.
Qed.
Lemma Same_Evicts s s' : Same s s' -> Evicts s s'.
Proof.
  intros S. constructor.
  - intros j. pose proof (S_node _ _ S j) as A. destruct (lc_node s' j) as [n'|] eqn:E', (lc_node s j) as [n|] eqn:E; cbn in A; try discriminate.
    exists n. split; [easy|congruence].
  - intros q. now rewrite (S_q _ _ S).
  - split; [apply S|apply S].
Qed.

(* one object is tried *)
Lemma quiet_fields s i n : quiet s i n = true -> n_pinned n = false /\ n_inq n = false /\ n_ref n = 0 /\
  (is_inode n = true -> n_nopen n = 0 /\ dq_l (lc_q s (QIno i)) = []).
Proof.
  unfold quiet. rewrite !andb_true_iff, !negb_true_iff, Z.eqb_eq. intros [[[A B] D] E]. repeat split; auto; rewrite H in E;
    apply andb_true_iff in E as [E1 E2]; [now apply Z.eqb_eq|destruct (dq_l _); easy].
Qed.
Lemma evict_or_relru_ok s c i n : Inv s -> lc_node s i = Some n -> ncls n = c ->
  exists s', evict_or_relru c i s = COk s' (quiet s i n) /\ Inv s' /\ Evicts s s' /\
    (forall j, option_map still (lc_node s' j) = option_map still (if quiet s i n then fset (lc_node s) i None j else lc_node s j)) /\
    (forall c', c' <> c -> hq_lru (lc_hm s' c') = hq_lru (lc_hm s c')) /\
    hq_lru (lc_hm s' c) = (if quiet s i n then del i (hq_lru (lc_hm s c)) else i :: del i (hq_lru (lc_hm s c))).
Proof.
  intros I E K. unfold evict_or_relru. rewrite (bind_ok _ _ _ _ _ (isevictable_ok _ _ _ _ _ I E K)).
  destruct (quiet s i n) eqn:Qt.
  - destruct (quiet_fields _ _ _ Qt) as (_ & Q & R & Own).
    destruct (evict_eff _ s c i n I E K R (fun _ => Q)) as (s' & Rn & I' & F & N & L & Ql); [intros Hi; now apply Own|].
    rewrite (bind_ok _ _ _ _ _ Rn). exists s'. split; [reflexivity|]. split; [easy|]. split; [|split; [|split]].
    + constructor; [|intros q; rewrite Ql; now apply (own_del H64 s i n)|exact F].
      intros j. rewrite N. unfold fset. destruct (Z.eqb_spec j i) as [->|Nj].
      * intros m Em. congruence.
      * destruct (lc_node s j); [eauto|discriminate].
    + intros j. now rewrite N.
    + intros c' Nc. rewrite L. apply del_notin. rewrite (Inv_inL H64 _ _ _ I), E. unfold inL. rewrite K.
      intros X. apply cls_eqb_eq in X. congruence.
    + apply L.
  - destruct (promote_ok _ s c i n true I E K) as (s' & Rn & S & Lo & L). rewrite (bind_ok _ _ _ _ _ Rn).
    exists s'. split; [reflexivity|]. split; [eapply Same_Inv; eauto|]. split; [now apply Same_Evicts|]. split; [|split].
    + intros j. apply (S_node _ _ S).
    + exact Lo.
    + rewrite (L eq_refl). destruct (hq_lru (lc_hm s c)) as [|a t] eqn:El; [reflexivity|]. cbn [is_front].
      destruct (Z.eqb_spec a i) as [->|]; [|reflexivity]. cbn [del filter]. rewrite Z.eqb_refl. cbn [negb]. f_equal.
      symmetry. apply del_notin. pose proof (I_lnd _ _ I c) as Nd. rewrite El in Nd. now apply NoDup_cons_iff in Nd.
Qed.

Lemma last_of_snoc l a : last_of (l ++ [a]) = Some a.
Proof. unfold last_of. rewrite rev_app_distr. reflexivity. Qed.
Lemma last_of_nil : last_of [] = None.
Proof. reflexivity. Qed.
Lemma lru_node s c i : Inv s -> In i (hq_lru (lc_hm s c)) -> exists n, lc_node s i = Some n /\ ncls n = c.
Proof. intros I H. now apply (I_lru _ _ I). Qed.
Lemma get_lru_ok s c : Inv s ->
  exists r, get_lru c s = COk s r /\ match r with Some i => In i (hq_lru (lc_hm s c)) | None => hq_lru (lc_hm s c) = [] end.
Proof.
  intros I. unfold get_lru, cbind at 1, cget. rewrite (I_sz _ _ I).
  destruct (hq_lru (lc_hm s c)) as [|a l _] eqn:El using rev_ind.
  - exists None. split; reflexivity.
  - rewrite last_of_snoc, zlen_app. change (zlen [a]) with 1. pose proof (zlen_nonneg _ l).
    destruct (Z.ltb_spec 0 (zlen l + 1)); [|lia].
    assert (Ha : In a (hq_lru (lc_hm s c))) by (rewrite El; apply in_or_app; right; now left).
    destruct (lru_node _ _ _ I Ha) as (n & E & K).
    rewrite (bind_ok _ _ _ _ _ (sanitize_ok _ _ _ E (g_ref _ _ _ _ (I_node _ _ I _ _ E)))).
    exists (Some a). split; [reflexivity|]. apply in_or_app. right. now left.
Qed.

Lemma shrink_loop_ok c now n : forall i ev s, Inv s ->
  exists s' r, shrink_loop c now n i ev s = COk s' r /\ Inv s' /\ Evicts s s'.
Proof.
  induction n as [|n IH]; intros i ev s I.
  - exists s, ev. split; [reflexivity|]. split; [easy|apply Evicts_refl].
  - cbn [shrink_loop]. destruct (get_lru_ok s c I) as (r & R & P). rewrite (bind_ok _ _ _ _ _ R). destruct r as [x|].
    2:{ exists s, ev. split; [reflexivity|]. split; [easy|apply Evicts_refl]. }
    destruct (lru_node _ _ _ I P) as (m & E & K).
    destruct (evict_or_relru_ok s c x m I E K) as (s1 & R1 & I1 & V1 & _). rewrite (bind_ok _ _ _ _ _ R1).
    destruct (quiet s x m).
    + destruct (IH (i + 1) (ev + 1) s1 I1) as (s2 & r & R2 & I2 & V2). exists s2, r. split; [easy|]. split; [easy|]. eapply Evicts_trans; eauto.
    + destruct (negb now && _).
      * exists s1, ev. split; [reflexivity|auto].
      * destruct (IH (i + 1) ev s1 I1) as (s2 & r & R2 & I2 & V2). exists s2, r. split; [easy|]. split; [easy|]. eapply Evicts_trans; eauto.
Qed.
Lemma shrink_ok c cnt now s : Inv s -> exists s' r, shrink c cnt now s = COk s' r /\ Inv s' /\ Evicts s s'.
Proof. intros I. unfold shrink, cbind, cget. now apply shrink_loop_ok. Qed.

(* going backwards through the list *)
Lemma prev_in_app l i t : ~ In i l -> prev_in None i (l ++ i :: t) = last_of l.
Proof.
  intros H. assert (X : forall p, prev_in p i (l ++ i :: t) = match last_of l with Some x => Some x | None => p end).
  { induction l as [|a l IH]; intros p; cbn [app prev_in].
    - now rewrite Z.eqb_refl.
    - destruct (Z.eqb_spec a i) as [->|Na]; [exfalso; apply H; now left|]. rewrite IH by (intros ?; apply H; now right).
      unfold last_of. cbn [rev]. destruct (rev l) as [|b r]; reflexivity. }
  rewrite X. now destruct (last_of l).
Qed.
Lemma last_of_split l i : last_of l = Some i -> exists t, l = t ++ [i].
Proof.
  destruct l as [|a t _] using rev_ind; [discriminate|]. rewrite last_of_snoc. intros H. exists t. congruence.
Qed.

Lemma find_ok s c n : forall l t, Inv s -> hq_lru (lc_hm s c) = l ++ t ->
  exists r, riter c (isevictable c) n (last_of l) s = COk s r /\
    match r with Some i => exists m, lc_node s i = Some m /\ ncls m = c /\ quiet s i m = true | None => True end.
Proof.
  induction n as [|n IH]; intros l t I L.
  - exists None. cbn [riter]. split; [destruct (last_of l); reflexivity|exact Logic.I].
  - cbn [riter]. destruct l as [|a l _] using rev_ind; [exists None; split; [reflexivity|exact Logic.I]|].
    rewrite last_of_snoc. rewrite <- app_assoc in L. cbn [app] in L.
    assert (Ha : In a (hq_lru (lc_hm s c))) by (rewrite L; apply in_or_app; right; now left).
    destruct (lru_node _ _ _ I Ha) as (m & E & K).
    rewrite (bind_ok _ _ _ _ _ (sanitize_ok _ _ _ E (g_ref _ _ _ _ (I_node _ _ I _ _ E)))). unfold cbind at 1, cget. cbv zeta.
    rewrite (bind_ok _ _ _ _ _ (isevictable_ok _ _ _ _ _ I E K)). destruct (quiet s a m) eqn:Qt.
    + exists (Some a). split; [reflexivity|]. eauto.
    + rewrite L, prev_in_app.
      * exact (IH l (a :: t) I L).
      * pose proof (I_lnd _ _ I c) as Nd. rewrite L in Nd. apply NoDup_remove_2 in Nd. intros X. apply Nd, in_or_app. now left.
Qed.
Lemma find_evictable_ok s c : Inv s ->
  exists r, find_evictable c s = COk s r /\
    match r with Some i => exists m, lc_node s i = Some m /\ ncls m = c /\ quiet s i m = true | None => True end.
Proof.
  intros I. unfold find_evictable, riterate, cbind, cget. cbv zeta. apply (find_ok s c _ _ [] I). now rewrite app_nil_r.
Qed.
Lemma evict_one_ok c s : Inv s -> exists s' b, evict_one c s = COk s' b /\ Inv s' /\ Evicts s s'.
Proof.
  intros I. unfold evict_one. destruct (find_evictable_ok s c I) as (r & R & P). rewrite (bind_ok _ _ _ _ _ R).
  destruct r as [i|]; [|exists s, false; split; [reflexivity|split; [easy|apply Evicts_refl]]].
  destruct P as (n & E & K & Qt). rewrite (bind_ok _ _ _ _ _ (isevictable_ok _ _ _ _ _ I E K)), Qt.
  destruct (quiet_fields _ _ _ Qt) as (_ & Q & Rf & Own).
  destruct (evict_eff _ s c i n I E K Rf (fun _ => Q)) as (s' & Rn & I' & F & N & L & Ql); [intros Hi; now apply Own|].
  rewrite (bind_ok _ _ _ _ _ Rn). exists s', true. split; [reflexivity|]. split; [easy|].
  constructor; [|intros q; rewrite Ql; now apply (own_del H64 s i n)|exact F].
  intros j. rewrite N. unfold fset. destruct (Z.eqb_spec j i) as [->|Nj].
  - intros m Em. congruence.
  - destruct (lc_node s j); [eauto|discriminate].
Qed.
Lemma evict_some_ok s : Inv s -> exists s', evict_some s = COk s' tt /\ Inv s' /\ Evicts s s'.
Proof.
  intros I. unfold evict_some. destruct (evict_one_ok CV s I) as (s1 & a & R1 & I1 & V1). rewrite (bind_ok _ _ _ _ _ R1).
  destruct (evict_one_ok CU s1 I1) as (s2 & b & R2 & I2 & V2). rewrite (bind_ok _ _ _ _ _ R2).
  destruct (a || b).
  - exists s2. split; [reflexivity|]. split; [easy|]. eapply Evicts_trans; eauto.
  - destruct (shrink_ok CV 1 false s2 I2) as (s3 & r3 & R3 & I3 & V3). rewrite (bind_ok _ _ _ _ _ R3).
    destruct (shrink_ok CU 1 false s3 I3) as (s4 & r4 & R4 & I4 & V4). rewrite (bind_ok _ _ _ _ _ R4).
    exists s4. split; [reflexivity|]. split; [easy|]. eapply Evicts_trans; [eapply Evicts_trans; [eapply Evicts_trans|]|]; eauto.
Qed.

Lemma relax_loop_ok now cnt n : forall i total s, Inv s ->
  exists s' r, relax_loop now cnt n i total s = COk s' r /\ Inv s' /\ Evicts s s'.
Proof.
  induction n as [|n IH]; intros i total s I.
  - exists s, total. split; [reflexivity|]. split; [easy|apply Evicts_refl].
  - cbn [relax_loop]. destruct (shrink_ok CV (i + 1) now s I) as (s1 & nv & R1 & I1 & V1). rewrite (bind_ok _ _ _ _ _ R1).
    unfold cbind at 1, cget.
    assert (X : exists s2 nu, (if (nv =? 0) || now || (128 <? hq_size (lc_hm s1 CU)) then shrink CU cnt now else cret 0) s1 = COk s2 nu /\ Inv s2 /\ Evicts s1 s2).
    { destruct ((nv =? 0) || now || (128 <? hq_size (lc_hm s1 CU))); [now apply shrink_ok|].
      exists s1, 0. split; [reflexivity|]. split; [easy|apply Evicts_refl]. }
    destruct X as (s2 & nu & R2 & I2 & V2). rewrite (bind_ok _ _ _ _ _ R2).
    destruct ((nv =? 0) && (nu =? 0)).
    + exists s2, total. split; [reflexivity|]. split; [easy|]. eapply Evicts_trans; eauto.
    + destruct (IH (i + 1) (total + nv + nu) s2 I2) as (s3 & r & R3 & I3 & V3). exists s3, r. split; [easy|]. split; [easy|].
      eapply Evicts_trans; [eapply Evicts_trans|]; eauto.
Qed.
Lemma relax_ok press now intern opstart idle s : Inv s ->
  exists s', lcache_relax press now intern opstart idle s = COk s' tt /\ Inv s' /\ Evicts s s'.
Proof.
  intros I. unfold lcache_relax. set (n := calc_niter _ _ _ _ _). cbv zeta.
  destruct (relax_loop_ok now (if now || (1 <? n) then 2 else 1) (Z.to_nat n) 0 0 s I) as (s1 & r1 & R1 & I1 & V1).
  rewrite (bind_ok _ _ _ _ _ R1). unfold relax_by_overpop. rewrite bind_assoc. unfold cbind at 1, cget. rewrite bind_assoc.
  assert (X : exists s2 a, (if 0 <? overpop (lc_hm s1 CV) then shrink CV (Z.min (overpop (lc_hm s1 CV)) 8) true else cret 0) s1 = COk s2 a /\ Inv s2 /\ Evicts s1 s2).
  { destruct (0 <? overpop (lc_hm s1 CV)); [now apply shrink_ok|]. exists s1, 0. split; [reflexivity|]. split; [easy|apply Evicts_refl]. }
  destruct X as (s2 & a & R2 & I2 & V2). rewrite (bind_ok _ _ _ _ _ R2). rewrite bind_assoc. unfold cbind at 1. rewrite bind_assoc.
  assert (X : exists s3 b, (if 0 <? overpop (lc_hm s2 CU) then shrink CU (Z.min (overpop (lc_hm s2 CU)) 2) true else cret 0) s2 = COk s3 b /\ Inv s3 /\ Evicts s2 s3).
  { destruct (0 <? overpop (lc_hm s2 CU)); [now apply shrink_ok|]. exists s2, 0. split; [reflexivity|]. split; [easy|apply Evicts_refl]. }
  destruct X as (s3 & b & R3 & I3 & V3). rewrite (bind_ok _ _ _ _ _ R3).
  exists s3. split; [reflexivity|]. split; [easy|]. eapply Evicts_trans; [eapply Evicts_trans|]; eauto.
Qed.

(* --- dropping all there is to drop ------------------------------------------------------------- *)
Definition cb (c : cls) : Z -> C bool := fun i => cbind (evict_or_relru c i) (fun _ => cret false).
Lemma drop_riter_ok c n : forall s l p, Inv s -> hq_lru (lc_hm s c) = p ++ l -> n = length l ->
  (forall i m, In i p -> lc_node s i = Some m -> quiet s i m = false) ->
  exists s', riter c (cb c) n (last_of l) s = COk s' None /\ Inv s' /\ Evicts s s' /\
    (forall c' i m, c' <> c -> lc_node s i = Some m -> ncls m = c' -> exists m', lc_node s' i = Some m' /\ still m' = still m) /\
    (forall i m, lc_node s' i = Some m -> ncls m = c -> quiet s' i m = false).
Proof.
  induction n as [|n IH]; intros s l p I L Ln P.
  - destruct l; [|discriminate]. exists s. cbn [riter last_of rev]. split; [reflexivity|]. split; [easy|]. split; [apply Evicts_refl|].
    split; [eauto|]. intros i m E K. apply (P i m); [|easy]. rewrite app_nil_r in L. rewrite <- L. apply (I_lru _ _ I). eauto.
  - destruct l as [|a l _] using rev_ind; [discriminate|]. rewrite app_length in Ln. cbn in Ln.
    rewrite last_of_snoc. cbn [riter].
    assert (Ha : In a (hq_lru (lc_hm s c))) by (rewrite L; apply in_or_app; right; apply in_or_app; right; now left).
    destruct (lru_node _ _ _ I Ha) as (m & E & K).
    rewrite (bind_ok _ _ _ _ _ (sanitize_ok _ _ _ E (g_ref _ _ _ _ (I_node _ _ I _ _ E)))). unfold cbind at 1, cget. cbv zeta.
    destruct (evict_or_relru_ok s c a m I E K) as (s1 & R1 & I1 & V1 & N1 & _ & L1).
    unfold cb at 1. rewrite bind_assoc. rewrite (bind_ok _ _ _ _ _ R1). rewrite (bind_ok _ _ s1 s1 false) by reflexivity.
    pose proof (I_lnd _ _ I c) as Nd. rewrite L in Nd.
    assert (Np : ~ In a p /\ ~ In a l).
    { rewrite app_assoc in Nd. change (NoDup ((p ++ l) ++ a :: [])) in Nd. apply NoDup_remove_2 in Nd. rewrite app_nil_r in Nd.
      split; intros X; apply Nd, in_or_app; auto. }
    assert (Dl : del a (hq_lru (lc_hm s c)) = p ++ l).
    { rewrite L, !del_app. rewrite (del_notin a p), (del_notin a l) by easy. cbn [del filter]. rewrite Z.eqb_refl. cbn [negb]. now rewrite app_nil_r. }
    rewrite Dl in L1.
    assert (Stay : forall j mj, j <> a -> lc_node s1 j = Some mj -> exists m0, lc_node s j = Some m0 /\ still mj = still m0).
    { intros j mj Nj Ej. pose proof (E_node _ _ V1 j) as X. rewrite Ej in X. exact X. }
    assert (Qs : forall q, dq_l (lc_q s1 q) = dq_l (lc_q s q)) by apply V1.
    set (p1 := if quiet s a m then p else a :: p).
    assert (L1' : hq_lru (lc_hm s1 c) = p1 ++ l) by (rewrite L1; unfold p1; destruct (quiet s a m); reflexivity).
    assert (P1 : forall i mi, In i p1 -> lc_node s1 i = Some mi -> quiet s1 i mi = false).
    { intros i mi Hi Ei. unfold p1 in Hi. pose proof (E_node _ _ V1 i) as X. rewrite Ei in X. destruct X as (m0 & E0 & S0).
      rewrite (quiet_same s s1 i m0 mi S0 Qs). destruct (quiet s a m) eqn:Qt; [now apply P|].
      destruct Hi as [<-|Hi]; [congruence|now apply P]. }
    assert (Nx : forall k, exists s2, riter c (cb c) n k s1 = COk s2 None -> True) by (intros; exists s1; easy). clear Nx.
    destruct (IH s1 l p1 I1 L1' ltac:(lia) P1) as (s2 & R2 & I2 & V2 & O2 & C2).
    exists s2. split; [|split; [easy|split; [eapply Evicts_trans; eauto|split; [|exact C2]]]].
    + rewrite L. destruct l as [|b l' _] using rev_ind.
      * cbn in Ln. assert (n = O) by lia. subst n. cbn [last_of rev riter] in R2. cbn [riter]. exact R2.
      * rewrite app_assoc. rewrite prev_in_app; [|intros X; apply in_app_or in X; tauto].
        rewrite app_assoc, last_of_snoc. rewrite last_of_snoc in R2. exact R2.
    + intros c' i mi Nc Ei Ki. assert (Ni : i <> a) by congruence.
      pose proof (N1 i) as X. unfold fset in X. destruct (Z.eqb_spec i a); [easy|].
      assert (X' : option_map still (lc_node s1 i) = option_map still (lc_node s i)) by (rewrite X; now destruct (quiet s a m)).
      rewrite Ei in X'. cbn in X'. destruct (lc_node s1 i) as [mi1|] eqn:E1i; [|discriminate]. cbn in X'.
      assert (S1 : still mi1 = still mi) by congruence.
      assert (K1 : ncls mi1 = c') by (apply still_fields in S1; intuition congruence).
      destruct (O2 c' i mi1 Nc E1i K1) as (m2 & E2 & S2). exists m2. split; [easy|congruence].
Qed.
Lemma drop_evictable_ok c s : Inv s -> hq_sz (lc_hm s c) <= 4294967295 ->
  exists s', drop_evictable c s = COk s' tt /\ Inv s' /\ Evicts s s' /\
    (forall c' i m, c' <> c -> lc_node s i = Some m -> ncls m = c' -> exists m', lc_node s' i = Some m' /\ still m' = still m) /\
    (forall i m, lc_node s' i = Some m -> ncls m = c -> quiet s' i m = false).
Proof.
  intros I B. unfold drop_evictable, riterate. rewrite bind_assoc. unfold cbind at 1, cget. cbv zeta.
  rewrite Z.min_r by easy.
  destruct (drop_riter_ok c (length (hq_lru (lc_hm s c))) s (hq_lru (lc_hm s c)) [] I eq_refl eq_refl) as (s' & R & X); [easy|].
  exists s'. split; [|exact X].
  assert (Ln : Z.to_nat (hq_sz (lc_hm s c)) = length (hq_lru (lc_hm s c))) by (rewrite (I_sz _ _ I); unfold zlen; lia).
  rewrite Ln. fold (cb c). now rewrite (bind_ok _ _ _ _ _ R).
Qed.
(* a step of dropping with any number of objects *)
Lemma drop_riter_safe c n : forall s l p, Inv s -> hq_lru (lc_hm s c) = p ++ l -> (n <= length l)%nat ->
  exists s', riter c (cb c) n (last_of l) s = COk s' None /\ Inv s' /\ Evicts s s'.
Proof.
  induction n as [|n IH]; intros s l p I L Ln.
  - exists s. cbn [riter]. split; [destruct (last_of l); reflexivity|]. split; [easy|apply Evicts_refl].
  - destruct l as [|a l _] using rev_ind; [cbn in Ln; lia|]. rewrite app_length in Ln. cbn in Ln.
    rewrite last_of_snoc. cbn [riter].
    assert (Ha : In a (hq_lru (lc_hm s c))) by (rewrite L; apply in_or_app; right; apply in_or_app; right; now left).
    destruct (lru_node _ _ _ I Ha) as (m & E & K).
    rewrite (bind_ok _ _ _ _ _ (sanitize_ok _ _ _ E (g_ref _ _ _ _ (I_node _ _ I _ _ E)))). unfold cbind at 1, cget. cbv zeta.
    destruct (evict_or_relru_ok s c a m I E K) as (s1 & R1 & I1 & V1 & N1 & _ & L1).
    unfold cb at 1. rewrite bind_assoc. rewrite (bind_ok _ _ _ _ _ R1). rewrite (bind_ok _ _ s1 s1 false) by reflexivity.
    pose proof (I_lnd _ _ I c) as Nd. rewrite L in Nd.
    assert (Np : ~ In a p /\ ~ In a l).
    { rewrite app_assoc in Nd. change (NoDup ((p ++ l) ++ a :: [])) in Nd. apply NoDup_remove_2 in Nd. rewrite app_nil_r in Nd.
      split; intros X; apply Nd, in_or_app; auto. }
    assert (Dl : del a (hq_lru (lc_hm s c)) = p ++ l).
    { rewrite L, !del_app. rewrite (del_notin a p), (del_notin a l) by easy. cbn [del filter]. rewrite Z.eqb_refl. cbn [negb]. now rewrite app_nil_r. }
    rewrite Dl in L1. set (p1 := if quiet s a m then p else a :: p).
    assert (L1' : hq_lru (lc_hm s1 c) = p1 ++ l) by (rewrite L1; unfold p1; destruct (quiet s a m); reflexivity).
    destruct (IH s1 l p1 I1 L1' ltac:(lia)) as (s2 & R2 & I2 & V2).
    exists s2. split; [|split; [easy|eapply Evicts_trans; eauto]].
    rewrite L. destruct l as [|b l' _] using rev_ind.
    + cbn in Ln. assert (n = O) by lia. subst n. cbn [last_of rev riter] in R2. cbn [riter]. exact R2.
    + rewrite app_assoc. rewrite prev_in_app; [|intros X; apply in_app_or in X; tauto].
      rewrite app_assoc, last_of_snoc. rewrite last_of_snoc in R2. exact R2.
Qed.
Lemma drop_evictable_safe c s : Inv s -> exists s', drop_evictable c s = COk s' tt /\ Inv s' /\ Evicts s s'.
Proof.
  intros I. unfold drop_evictable, riterate. rewrite bind_assoc. unfold cbind at 1, cget. cbv zeta. fold (cb c).
  destruct (drop_riter_safe c (Z.to_nat (Z.min 4294967295 (hq_sz (lc_hm s c)))) s (hq_lru (lc_hm s c)) [] I eq_refl) as (s' & R & X).
  { rewrite (I_sz _ _ I). unfold zlen. lia. }
  exists s'. split; [|exact X]. now rewrite (bind_ok _ _ _ _ _ R).
Qed.

Lemma Evicts_sz s s' c : Inv s -> Inv s' -> Evicts s s' -> hq_sz (lc_hm s' c) <= hq_sz (lc_hm s c).
Proof.
  intros I I' V. rewrite (I_sz _ _ I), (I_sz _ _ I'). unfold zlen. apply inj_le. apply NoDup_incl_length; [apply I'|].
  intros i Hi. apply (I_lru _ _ I') in Hi as (n & E & K). pose proof (E_node _ _ V i) as X. rewrite E in X. destruct X as (m & Em & St).
  apply (I_lru _ _ I). exists m. split; [easy|]. apply still_fields in St. intuition congruence.
Qed.
Lemma drop_loop_safe n : forall pre s, Inv s -> exists s', drop_loop n pre s = COk s' tt /\ Inv s' /\ Evicts s s'.
Proof.
  induction n as [|n IH]; intros pre s I.
  - exists s. split; [reflexivity|]. split; [easy|apply Evicts_refl].
  - cbn [drop_loop]. unfold cbind at 1, cget. destruct (usage_sum s =? pre).
    + exists s. split; [reflexivity|]. split; [easy|apply Evicts_refl].
    + destruct (drop_evictable_safe CV s I) as (s1 & R1 & I1 & V1). rewrite (bind_ok _ _ _ _ _ R1).
      destruct (drop_evictable_safe CU s1 I1) as (s2 & R2 & I2 & V2). rewrite (bind_ok _ _ _ _ _ R2).
      destruct (IH (usage_sum s) s2 I2) as (s3 & R3 & I3 & V3). exists s3. split; [easy|]. split; [easy|].
      eapply Evicts_trans; [eapply Evicts_trans|]; eauto.
Qed.
Lemma drop_ok s : Inv s -> exists s', lcache_drop s = COk s' tt /\ Inv s' /\ Evicts s s'.
Proof. intros I. now apply drop_loop_safe. Qed.
Lemma drop_all s : Inv s -> usage_sum s <> 0 -> (forall c, hq_sz (lc_hm s c) <= 4294967295) ->
  exists s', lcache_drop s = COk s' tt /\ Inv s' /\ Evicts s s' /\ (forall i m, lc_node s' i = Some m -> quiet s' i m = false).
Proof.
  intros I U B. unfold lcache_drop. cbn [drop_loop]. unfold cbind at 1, cget.
  destruct (Z.eqb_spec (usage_sum s) 0); [easy|].
  destruct (drop_evictable_ok CV s I (B CV)) as (s1 & R1 & I1 & V1 & O1 & C1). rewrite (bind_ok _ _ _ _ _ R1).
  assert (B1 : hq_sz (lc_hm s1 CU) <= 4294967295) by (pose proof (Evicts_sz s s1 CU I I1 V1); specialize (B CU); lia).
  destruct (drop_evictable_ok CU s1 I1 B1) as (s2 & R2 & I2 & V2 & O2 & C2). rewrite (bind_ok _ _ _ _ _ R2).
  destruct (drop_loop_safe 9 (usage_sum s) s2 I2) as (s3 & R3 & I3 & V3).
  exists s3. split; [exact R3|]. split; [easy|]. split; [eapply Evicts_trans; [eapply Evicts_trans|]; eauto|].
  assert (Q2 : forall i m, lc_node s2 i = Some m -> quiet s2 i m = false).
  { intros i m E. destruct (ncls m) eqn:K; [|now apply C2]. pose proof (E_node _ _ V2 i) as X. rewrite E in X. destruct X as (m1 & E1 & S1).
    rewrite (quiet_same s1 s2 i m1 m S1 (E_q _ _ V2)). apply C1; [easy|]. apply still_fields in S1. intuition congruence. }
  intros i m E. pose proof (E_node _ _ V3 i) as X. rewrite E in X. destruct X as (m2 & E2 & S2).
  rewrite (quiet_same s2 s3 i m2 m S2 (E_q _ _ V3)). now apply Q2.
Qed.

(* --- creation ------------------------------------------------------------------------------------- *)
Definition fresh (k : key) : node :=
  mkNode k (hkey_hash_of H64 k) 0 0 true false 0 (ltype_size (key_ltype k)) (Some (home k)) false false 0.
Definition born (s s' : lcache) (k : key) (i : Z) : Prop :=
  i = lc_next s /\ lc_next s' = lc_next s + 1 /\ (forall c, hq_nslots (lc_hm s' c) = hq_nslots (lc_hm s c)) /\
  (forall j, lc_node s' j = fset (lc_node s) i (Some (fresh k)) j) /\
  (forall c, hq_lru (lc_hm s' c) = if cls_eqb (kcls k) c then i :: hq_lru (lc_hm s c) else hq_lru (lc_hm s c)) /\
  (forall q, dq_l (lc_q s' q) = dq_l (lc_q s q)).
Lemma next_free s : Inv s -> lc_node s (lc_next s) = None.
Proof.
  intros I. destruct (lc_node s (lc_next s)) as [n|] eqn:E; [|reflexivity].
  pose proof (g_next _ _ _ _ (I_node _ _ I _ _ E)). lia.
Qed.
Lemma next_empty s : Inv s -> lc_q s (QIno (lc_next s)) = mkDq [] 0 0.
Proof.
  intros I. pose proof (I_qsz _ _ I (QIno (lc_next s))) as A. pose proof (I_qac _ _ I (QIno (lc_next s))) as B.
  pose proof (I_qown _ _ I (lc_next s)) as D. pose proof (next_free s I) as F.
  destruct (lc_q s (QIno (lc_next s))) as [l z a]. cbn [dq_l dq_sz dq_accum] in *.
  destruct l as [|x t]; [cbn in A, B; now subst|]. destruct (D x (or_introl eq_refl)) as (n & E & _). congruence.
Qed.
Definition tail_of (c : cls) (k : key) (r : option Z) : C (option Z) :=
  match r with
  | None => cret None
  | Some i =>
      cbind (dirtyq_by (key_ltype k)) (fun q => cbind (dqe_setq i q) (fun _ =>
      cbind (upd i (fun n => mkNode (n_key n) (hkey_hash_of H64 k) (n_hhit n) (n_lhit n) (n_mapped n) (n_forgot n)
                             (n_ref n) (n_sz n) (n_dq n) (n_inq n) (n_pinned n) (n_nopen n))) (fun _ =>
      cbind (hmapq_store c i) (fun _ => cret (Some i)))))
  end.
Definition node0 (k : key) : node := mkNode k 0 0 0 false false 0 (ltype_size (key_ltype k)) None false false 0.
Definition node1 (k : key) : node :=
  mkNode k (hkey_hash_of H64 k) 0 0 false false 0 (ltype_size (key_ltype k)) (Some (home k)) false false 0.
Definition st1 (s : lcache) (k : key) : lcache :=
  put_next (put_q (put_node s (lc_next s) (Some (node0 k))) (QIno (lc_next s)) (mkDq [] 0 0)) (lc_next s + 1).
Definition st3 (s : lcache) (k : key) : lcache :=
  put_node (put_node (st1 s k) (lc_next s) (Some (set_dq (node0 k) (Some (home k))))) (lc_next s) (Some (node1 k)).
Definition st4 (s : lcache) (k : key) (c : cls) : lcache :=
  put_hm (st3 s k) c (set_lru (lc_hm s c) (lc_next s :: hq_lru (lc_hm s c)) (hq_sz (lc_hm s c) + 1)).
Definition st6 (s : lcache) (k : key) (c : cls) : lcache :=
  put_node (put_hm (st4 s k c) c (set_chain (lc_hm (st4 s k c) c) (hkey_hash_of H64 k) (lc_next s :: chain_of (lc_hm (st4 s k c) c) (hkey_hash_of H64 k))))
    (lc_next s) (Some (fresh k)).
Definition st7 (s : lcache) (k : key) (c : cls) : lcache :=
  put_hm (st6 s k c) c (set_size (lc_hm (st6 s k c) c) (hq_size (lc_hm (st6 s k c) c) + 1)).
Lemma tail_run s k c : key_ok k -> tail_of c k (Some (lc_next s)) (st1 s k) = COk (st7 s k c) (Some (lc_next s)).
Proof.
  intros Ko. unfold tail_of. rewrite (bind_ok _ _ _ _ _ (dirtyq_by_ok k _ Ko)).
  assert (E1 : lc_node (st1 s k) (lc_next s) = Some (node0 k)) by (unfold st1; cbn [put_next put_q put_node lc_node]; apply fset_same).
  assert (R1 : dqe_setq (lc_next s) (home k) (st1 s k) = COk (put_node (st1 s k) (lc_next s) (Some (set_dq (node0 k) (Some (home k))))) tt).
  { unfold dqe_setq. rewrite (bind_ok _ _ _ _ _ (node_ok _ _ _ E1)). cbn [node0 n_inq negb].
    rewrite (bind_ok _ _ _ _ _ (assert_ok true _ eq_refl)). now rewrite (upd_ok _ _ _ (node0 k)). }
  rewrite (bind_ok _ _ _ _ _ R1).
  assert (R3 : upd (lc_next s) (fun n => mkNode (n_key n) (hkey_hash_of H64 k) (n_hhit n) (n_lhit n) (n_mapped n) (n_forgot n)
                             (n_ref n) (n_sz n) (n_dq n) (n_inq n) (n_pinned n) (n_nopen n))
             (put_node (st1 s k) (lc_next s) (Some (set_dq (node0 k) (Some (home k))))) = COk (st3 s k) tt).
  { rewrite (upd_ok _ _ _ (set_dq (node0 k) (Some (home k)))); [reflexivity|]. cbn [put_node lc_node]. apply fset_same. }
  rewrite (bind_ok _ _ _ _ _ R3).
  assert (E4 : lc_node (st4 s k c) (lc_next s) = Some (node1 k)) by (unfold st4, st3; cbn [put_hm put_node lc_node]; apply fset_same).
  assert (R4 : hmapq_store c (lc_next s) (st3 s k) = COk (st7 s k c) tt).
  { unfold hmapq_store. rewrite (bind_ok _ _ _ (st4 s k c) tt) by reflexivity.
    rewrite (bind_ok _ _ _ (st6 s k c) tt); [reflexivity|]. unfold hmap.
    rewrite (bind_ok _ _ _ _ _ (node_ok _ _ _ E4)). unfold cbind at 1, cget. cbv zeta. unfold cbind at 1, cput.
    rewrite (upd_ok _ _ _ (node1 k)); [reflexivity|exact E4]. }
  rewrite (bind_ok _ _ _ _ _ R4). reflexivity.
Qed.
Lemma create_tail_ok s k : Inv s -> key_ok k ->
  exists s1 s', new_node k s = COk s1 (lc_next s) /\ tail_of (kcls k) k (Some (lc_next s)) s1 = COk s' (Some (lc_next s)) /\
    Inv s' /\ born s s' k (lc_next s).
Proof.
  intros I Ko. pose proof (key_ok_size k Ko) as Sz. exists (st1 s k), (st7 s k (kcls k)). split.
  { unfold new_node. unfold cbind at 1, cget.
    assert (A : 0 <? ltype_size (key_ltype k) = true) by now apply Z.ltb_lt.
    rewrite (bind_ok _ _ _ _ _ (assert_ok _ _ A)). reflexivity. }
  split; [now apply tail_run|]. set (i := lc_next s). set (c := kcls k). set (s7 := st7 s k c).
  set (hs := hkey_hash_of H64 k).
  assert (N7 : forall j, lc_node s7 j = fset (lc_node s) i (Some (fresh k)) j).
  { intros j. unfold s7, st7, st6, st4, st3, st1. cbn [put_hm put_node put_next put_q lc_node]. fold i.
    unfold fset. destruct (j =? i); reflexivity. }
  assert (Q7 : forall q, lc_q s7 q = lc_q s q).
  { intros q. unfold s7, st7, st6, st4, st3, st1. cbn [put_hm put_node put_next put_q lc_q]. fold i. rewrite qset_case.
    destruct (qid_eqb (QIno i) q) eqn:Eq; [|reflexivity]. apply qid_eqb_eq in Eq. subst q. symmetry. now apply next_empty. }
  assert (X7 : lc_next s7 = i + 1) by reflexivity.
  assert (H7 : forall c', lc_hm s7 c' = if cls_eqb c c' then mkHm (i :: hq_lru (lc_hm s c)) (hq_sz (lc_hm s c) + 1)
                   (fset (hq_tbl (lc_hm s c)) (slot_of (lc_hm s c) hs) (i :: hq_tbl (lc_hm s c) (slot_of (lc_hm s c) hs)))
                   (hq_nslots (lc_hm s c)) (hq_size (lc_hm s c) + 1) else lc_hm s c').
  { intros c'. unfold s7. generalize c. intros c0. destruct c0, c'; reflexivity. }
  pose proof (next_free s I) as Fr. fold i in Fr.
  assert (L7 : forall c', hq_lru (lc_hm s7 c') = if cls_eqb c c' then i :: hq_lru (lc_hm s c') else hq_lru (lc_hm s c')).
  { intros c'. rewrite H7. destruct (cls_eqb c c') eqn:Ec; [apply cls_eqb_eq in Ec; now subst c'|reflexivity]. }
  assert (Ns : forall c', hq_nslots (lc_hm s7 c') = hq_nslots (lc_hm s c')).
  { intros c'. rewrite H7. destruct (cls_eqb c c') eqn:Ec; [apply cls_eqb_eq in Ec; now subst c'|reflexivity]. }
  assert (Kf : ncls (fresh k) = c) by (unfold ncls, c, kcls; destruct k; reflexivity).
  split; [|repeat split; auto; intros q; now rewrite Q7].
  clearbody s7. apply (Inv_put H64 s s7 i (Some (fresh k)) I N7 Ns).
  - rewrite X7. unfold i. lia.
  - intros n Hn. assert (n = fresh k) by congruence. subst n. constructor;
      cbn [fresh n_key n_hash n_ref n_sz n_nopen n_dq n_forgot n_mapped]; try lia; auto.
    + apply Ko.
    + exists (home k). split; [reflexivity|]. intros Kc. apply home_cls; [easy|]. change (c = CU). congruence.
  - intros c'. rewrite L7. unfold inL. rewrite Kf. destruct (cls_eqb c c') eqn:Ec.
    + apply rel_cons; [apply I|]. rewrite (Inv_inL H64 _ _ _ I), Fr. easy.
    + replace false with (inL (Some (fresh k)) c') by (cbn; now rewrite Kf). apply (relL H64); [easy|]. cbn. rewrite Kf, Fr. exact Ec.
  - intros c'. rewrite H7, Fr. unfold inL. rewrite Kf. destruct (cls_eqb c c') eqn:Ec; [apply cls_eqb_eq in Ec; subst c'|]; cbn; lia.
  - intros c' k'. rewrite H7. unfold inC. rewrite Kf. destruct (cls_eqb c c') eqn:Ec.
    + apply cls_eqb_eq in Ec. subst c'. cbn [andb fresh n_mapped n_hash hq_tbl]. fold hs. unfold fset.
      destruct (Z.eqb_spec k' (slot_of (lc_hm s c) hs)) as [->|Nk].
      * rewrite Z.eqb_refl. apply rel_cons; [apply I|]. rewrite (Inv_inC H64 _ _ _ _ I), Fr. easy.
      * destruct (Z.eqb_spec (slot_of (lc_hm s c) hs) k'); [congruence|].
        replace false with (inC (lc_hm s c) (Some (fresh k)) c k').
        -- apply (relC H64); [easy|]. rewrite Fr. unfold inC. rewrite Kf. cbn [fresh n_mapped n_hash]. fold hs.
           destruct (Z.eqb_spec (slot_of (lc_hm s c) hs) k'); [congruence|]. now rewrite andb_false_r.
        -- unfold inC. cbn [fresh n_mapped n_hash]. fold hs. destruct (Z.eqb_spec (slot_of (lc_hm s c) hs) k'); [congruence|]. now rewrite andb_false_r.
    + cbn [andb]. replace false with (inC (lc_hm s c') (Some (fresh k)) c' k').
      * apply (relC H64); [easy|]. rewrite Fr. unfold inC. now rewrite Kf, Ec.
      * unfold inC. now rewrite Kf, Ec.
  - intros c'. rewrite H7, Fr. unfold inM. rewrite Kf. destruct (cls_eqb c c') eqn:Ec; [apply cls_eqb_eq in Ec; subst c'|]; cbn; lia.
  - intros q. rewrite Q7. replace (inQ (Some (fresh k)) q) with false by reflexivity.
    replace false with (inQ (Some (fresh k)) q) by reflexivity. apply (relQ H64); [easy|]. now rewrite Fr.
  - intros q. rewrite Q7, Fr. cbn. lia.
  - intros q. rewrite Q7, Fr. cbn. lia.
  - right. left. now rewrite Fr.
  - cbn [fresh n_inq]. discriminate.
Qed.

Lemma create_unfold c k al : lcache_create H64 c k al = cbind (lcache_require k 4 al) (tail_of c k).
Proof. reflexivity. Qed.
Lemma require_ok k : key_ok k -> forall n al s, Inv s ->
  exists s1, Inv s1 /\ Evicts s s1 /\
    lcache_require k n al s = (if existsb (fun b => b) (firstn n al) then cbind (new_node k) (fun i => cret (Some i)) s1 else COk s1 None).
Proof.
  intros Ko. induction n as [|n IH]; intros al s I.
  - exists s. cbn. split; [easy|]. split; [apply Evicts_refl|reflexivity].
  - cbn [lcache_require]. destruct al as [|[|] al]; cbn [hd tl firstn existsb orb].
    + destruct (evict_some_ok s I) as (s1 & R1 & I1 & V1). rewrite (bind_ok _ _ _ _ _ R1).
      destruct (IH [] s1 I1) as (s2 & I2 & V2 & R2). exists s2. split; [easy|]. split; [eapply Evicts_trans; eauto|].
      rewrite R2. now rewrite firstn_nil.
    + exists s. split; [easy|]. split; [apply Evicts_refl|reflexivity].
    + destruct (evict_some_ok s I) as (s1 & R1 & I1 & V1). rewrite (bind_ok _ _ _ _ _ R1).
      destruct (IH al s1 I1) as (s2 & I2 & V2 & R2). exists s2. split; [easy|]. split; [eapply Evicts_trans; eauto|exact R2].
Qed.
Lemma create_ok s k al : Inv s -> key_ok k ->
  exists s1 s', Inv s1 /\ Evicts s s1 /\
    if existsb (fun b => b) (firstn 4 al)
    then lcache_create H64 (kcls k) k al s = COk s' (Some (lc_next s1)) /\ Inv s' /\ born s1 s' k (lc_next s1)
    else lcache_create H64 (kcls k) k al s = COk s' None /\ s' = s1.
Proof.
  intros I Ko. rewrite create_unfold. destruct (require_ok k Ko 4 al s I) as (s1 & I1 & V1 & R).
  exists s1. destruct (existsb _ _).
  - destruct (create_tail_ok s1 k I1 Ko) as (s2 & s3 & R2 & R3 & I3 & B3). exists s3. split; [easy|]. split; [easy|].
    split; [|auto]. unfold cbind at 1. rewrite R. rewrite (bind_ok _ _ _ _ _ R2). exact R3.
  - exists s1. split; [easy|]. split; [easy|]. split; [|reflexivity]. unfold cbind at 1. rewrite R. reflexivity.
Qed.
End Loops.
